(** Properties of the activation layers: what the circuit accepts, and whether
    the honest prover succeeds.  Values are fixed point at scale 2^kappa. *)
From Coq Require Import ZArith List Bool Znumtheory Lia.
From Verif Require Import Spec.Numbers Spec.ActivationSpec Spec.HonestProver Model.Builder Model.Gadgets Model.Layers
  Model.Activations Proofs.RangeCheck Proofs.ActivationProps.
Import ListNotations.
Local Open Scope Z_scope.

(** ** C80  Sqrt: accepted outputs *)

(** False at the default configuration (BN254, chunk 12, scale 2^18, 64 bits):
    sqrt(0.0) accepts 16384.0 and sqrt(-1.0) accepts 0.0. *)
Theorem C80_sqrt_sound_refuted F :
  accepts bn254_r (table_rows 12 F) (sqrt_element bn254_r 12 18 64 0) (2 ^ 32) /\
  accepts bn254_r (table_rows 12 F) (sqrt_element bn254_r 12 18 64 (enc bn254_r (- 2 ^ 18))) 0.
Proof. exact (p80_sqrt_sound_refuted F). Qed.
Print Assumptions C80_sqrt_sound_refuted.

(** If n_bits + 1 is a multiple of the chunk width, exactly the square root
    rounded down is accepted, for inputs that are not negative. *)
Theorem C80_sqrt_sound_partial p c F kappa nb x y :
  prime p -> (0 < c)%nat -> width_ok c nb -> width_ok c (nb + 1) -> ((nb + 1) mod c = 0)%nat ->
  2 * (2 ^ Z.of_nat (rounded c nb) * 2 ^ Z.of_nat kappa + 2 ^ Z.of_nat (rounded c nb) * 2 ^ Z.of_nat (rounded c nb)
       + 2 * 2 ^ Z.of_nat (rounded c nb) + 2 ^ Z.of_nat (rounded c (nb + 1))) <= p ->
  - 2 ^ Z.of_nat (rounded c nb) < x < 2 ^ Z.of_nat (rounded c nb) ->
  accepts p (table_rows c F) (sqrt_element p c kappa nb (enc p x)) y <->
  0 <= x < 2 ^ Z.of_nat nb /\ Z.sqrt (x * 2 ^ Z.of_nat kappa) < 2 ^ Z.of_nat nb /\
  y = enc p (Z.sqrt (x * 2 ^ Z.of_nat kappa)).
Proof. exact (p80_sqrt_sound_partial p c F kappa nb x y). Qed.
Print Assumptions C80_sqrt_sound_partial.

Example C80_applies : prime bn254_r /\ width_ok 12 35 /\ width_ok 12 36 /\ (36 mod 12 = 0)%nat /\
  2 * (2 ^ Z.of_nat (rounded 12 35) * 2 ^ Z.of_nat 18 + 2 ^ Z.of_nat (rounded 12 35) * 2 ^ Z.of_nat (rounded 12 35)
       + 2 * 2 ^ Z.of_nat (rounded 12 35) + 2 ^ Z.of_nat (rounded 12 36)) <= bn254_r /\
  Z.sqrt (2 ^ 19 * 2 ^ 18) = 370727.
Proof. exact p80_applies. Qed.

(** ** C81  Sqrt: the honest prover *)

(** False: with 35-bit values (36-bit remainders, a multiple of the chunk 12)
    and scale 2^18 the honest prover, which rounds to the nearest, cannot
    prove sqrt(2.0): 370728 is the nearest integer to the root of 2^37. *)
Theorem C81_sqrt_complete_refuted F G :
  nearest_root (2 ^ 19 * 2 ^ 18) 370728 /\
  (G 10%nat [2 ^ 19; 2 ^ 18] 1%nat = Some [370728] ->
   run (honest_with G) (table_rowsb 12 F) (sqrt_element bn254_r 12 18 35 (2 ^ 19)) = None).
Proof. exact (p81_sqrt_complete_refuted F G). Qed.
Print Assumptions C81_sqrt_complete_refuted.

(** If n_bits + 1 is not a multiple of the chunk width, the honest prover
    succeeds for every input that is not negative and whose root has a bit to
    spare. *)
Theorem C81_sqrt_complete_partial p c F G kappa nb x n :
  prime p -> (0 < c)%nat -> width_ok c nb -> width_ok c (nb + 1) -> ((nb + 1) mod c <> 0)%nat ->
  2 * (2 ^ Z.of_nat (rounded c nb) * 2 ^ Z.of_nat kappa + 2 ^ Z.of_nat (rounded c nb) * 2 ^ Z.of_nat (rounded c nb)
       + 2 * 2 ^ Z.of_nat (rounded c nb) + 2 ^ Z.of_nat (rounded c (nb + 1))) <= p ->
  0 <= x < 2 ^ Z.of_nat nb -> nearest_root (x * 2 ^ Z.of_nat kappa) n -> 2 * n <= 2 ^ Z.of_nat nb ->
  G 10%nat [enc p x; enc p (2 ^ Z.of_nat kappa)] 1%nat = Some [enc p n] ->
  run (honest_with G) (table_rowsb c F) (sqrt_element p c kappa nb (enc p x)) = Some (enc p n).
Proof. exact (p81_sqrt_complete_partial p c F G kappa nb x n). Qed.
Print Assumptions C81_sqrt_complete_partial.

(** If n_bits + 1 is a multiple of the chunk width, the honest prover succeeds
    exactly when rounding to the nearest is rounding down. *)
Theorem C81_sqrt_complete_exact_width_partial p c F G kappa nb x n :
  prime p -> (0 < c)%nat -> width_ok c nb -> width_ok c (nb + 1) -> ((nb + 1) mod c = 0)%nat ->
  2 * (2 ^ Z.of_nat (rounded c nb) * 2 ^ Z.of_nat kappa + 2 ^ Z.of_nat (rounded c nb) * 2 ^ Z.of_nat (rounded c nb)
       + 2 * 2 ^ Z.of_nat (rounded c nb) + 2 ^ Z.of_nat (rounded c (nb + 1))) <= p ->
  0 <= x < 2 ^ Z.of_nat nb -> 0 <= n < 2 ^ Z.of_nat nb ->
  G 10%nat [enc p x; enc p (2 ^ Z.of_nat kappa)] 1%nat = Some [enc p n] ->
  run (honest_with G) (table_rowsb c F) (sqrt_element p c kappa nb (enc p x)) =
  if n =? Z.sqrt (x * 2 ^ Z.of_nat kappa) then Some (enc p n) else None.
Proof. exact (p81_sqrt_complete_exact_width_partial p c F G kappa nb x n). Qed.
Print Assumptions C81_sqrt_complete_exact_width_partial.

Example C81_applies : prime bn254_r /\ width_ok 12 64 /\ width_ok 12 65 /\ (65 mod 12 <> 0)%nat /\
  2 * (2 ^ Z.of_nat (rounded 12 64) * 2 ^ Z.of_nat 18 + 2 ^ Z.of_nat (rounded 12 64) * 2 ^ Z.of_nat (rounded 12 64)
       + 2 * 2 ^ Z.of_nat (rounded 12 64) + 2 ^ Z.of_nat (rounded 12 65)) <= bn254_r /\
  nearest_root (2 ^ 19 * 2 ^ 18) 370728.
Proof. exact p81_applies. Qed.

(** ** C82  LeakyRelu: accepted outputs *)

(** False at the default configuration (64 bits, chunk 12): for every input
    both the input and alpha times the input are accepted; so -5.0 may be
    output for -5.0. *)
Theorem C82_leaky_sound_refuted F alpha x :
  0 <= alpha <= 2 ^ 18 -> - 2 ^ 63 <= x < 2 ^ 63 ->
  accepts bn254_r (table_rows 12 F) (leaky_relu_element bn254_r 12 18 64 alpha (enc bn254_r x)) (enc bn254_r x) /\
  accepts bn254_r (table_rows 12 F) (leaky_relu_element bn254_r 12 18 64 alpha (enc bn254_r x)) (enc bn254_r (alpha * x / 2 ^ 18)).
Proof. exact (p82_leaky_sound_refuted F alpha x). Qed.
Print Assumptions C82_leaky_sound_refuted.

(** If n_bits = s + 1 and the scale exponent are multiples of the chunk width,
    exactly LeakyReLU is accepted. *)
Theorem C82_leaky_sound_partial p c F kappa s alpha x y :
  prime p -> (0 < c)%nat -> (kappa < 32)%nat -> (s < 64)%nat -> width_ok c (s + 1) -> width_ok c kappa ->
  2 ^ Z.of_nat kappa * 2 ^ Z.of_nat (rounded c (s + 1)) + 2 ^ Z.of_nat (rounded c kappa) <= p ->
  2 * 2 ^ Z.of_nat (s + 1) <= p -> 0 <= alpha <= 2 ^ Z.of_nat kappa ->
  ((s + 1) mod c = 0)%nat -> (kappa mod c = 0)%nat -> signed_fits s x ->
  accepts p (table_rows c F) (leaky_relu_element p c kappa (s + 1) alpha (enc p x)) y <->
  y = enc p (leaky (2 ^ Z.of_nat kappa) alpha x).
Proof. exact (p82_leaky_sound_partial p c F kappa s alpha x y). Qed.
Print Assumptions C82_leaky_sound_partial.

Example C82_applies : prime bn254_r /\ width_ok 12 (59 + 1) /\ width_ok 12 24 /\ ((59 + 1) mod 12 = 0)%nat /\ (24 mod 12 = 0)%nat /\
  2 ^ Z.of_nat 24 * 2 ^ Z.of_nat (rounded 12 (59 + 1)) + 2 ^ Z.of_nat (rounded 12 24) <= bn254_r /\
  2 * 2 ^ Z.of_nat (59 + 1) <= bn254_r /\ leaky (2 ^ 24) 167772 (- 5 * 2 ^ 24) = - 838860.
Proof. exact p82_applies. Qed.

(** ** C83  LeakyRelu: the honest prover *)

(** The honest prover succeeds on every signed input of n_bits = s + 1 bits,
    at every chunk width, and outputs LeakyReLU. *)
Theorem C83_leaky_complete p c F G kappa s alpha x :
  prime p -> (0 < c)%nat -> (kappa < 32)%nat -> (s < 64)%nat -> width_ok c (s + 1) -> width_ok c kappa ->
  2 ^ Z.of_nat kappa * 2 ^ Z.of_nat (rounded c (s + 1)) + 2 ^ Z.of_nat (rounded c kappa) <= p ->
  2 * 2 ^ Z.of_nat (s + 1) <= p -> 0 <= alpha <= 2 ^ Z.of_nat kappa ->
  signed_fits s x ->
  run (honest_with G) (table_rowsb c F) (leaky_relu_element p c kappa (s + 1) alpha (enc p x)) =
  Some (enc p (leaky (2 ^ Z.of_nat kappa) alpha x)).
Proof. exact (p83_leaky_complete p c F G kappa s alpha x). Qed.
Print Assumptions C83_leaky_complete.

Example C83_applies : prime bn254_r /\ width_ok 12 (63 + 1) /\ width_ok 12 18 /\
  2 ^ Z.of_nat 18 * 2 ^ Z.of_nat (rounded 12 (63 + 1)) + 2 ^ Z.of_nat (rounded 12 18) <= bn254_r /\
  2 * 2 ^ Z.of_nat (63 + 1) <= bn254_r /\ signed_fits 63 (- 5 * 2 ^ 18).
Proof. exact p83_applies. Qed.

(** ** C84  HardSwish: accepted outputs *)

(** False: the output is not range checked, so for input 0 the field element 1
    / (6 scale) is accepted. *)
Theorem C84_hardswish_sound_refuted p c F kappa :
  prime p -> (0 < c)%nat -> (kappa < 61)%nat -> width_ok c (kappa + 4) -> 2 * 2 ^ Z.of_nat (rounded c (kappa + 4)) <= p ->
  exists y, accepts p (table_rows c F) (hardswish_element p c kappa 0) y /\ (6 * 2 ^ Z.of_nat kappa * y) mod p = 1.
Proof. exact (p84_hardswish_sound_refuted p c F kappa). Qed.
Print Assumptions C84_hardswish_sound_refuted.

(** What is accepted when scale_exponent + 4 is a multiple of the chunk width:
    the field elements y with 6 scale y within 6 scale of six times HardSwish,
    for inputs between -19 and 13. *)
Theorem C84_hardswish_sound_partial p c F kappa x y :
  prime p -> (0 < c)%nat -> (kappa < 61)%nat -> width_ok c (kappa + 4) -> 2 * 2 ^ Z.of_nat (rounded c (kappa + 4)) <= p ->
  ((kappa + 4) mod c = 0)%nat -> Z.abs x + 32 * 2 ^ Z.of_nat kappa < p ->
  accepts p (table_rows c F) (hardswish_element p c kappa (enc p x)) y <->
  - 16 * 2 ^ Z.of_nat kappa < x + 3 * 2 ^ Z.of_nat kappa < 16 * 2 ^ Z.of_nat kappa /\ 0 <= y < p /\
  exists u, - (6 * 2 ^ Z.of_nat kappa) <= u <= 6 * 2 ^ Z.of_nat kappa /\
    enc p (6 * 2 ^ Z.of_nat kappa * y) = enc p (hard_swish6 (2 ^ Z.of_nat kappa) x + u).
Proof. exact (p84_hardswish_sound_partial p c F kappa x y). Qed.
Print Assumptions C84_hardswish_sound_partial.

Example C84_applies : prime bn254_r /\ width_ok 12 (20 + 4) /\ ((20 + 4) mod 12 = 0)%nat /\
  2 * 2 ^ Z.of_nat (rounded 12 (20 + 4)) <= bn254_r /\ hard_swish6 (2 ^ 20) (2 ^ 20) = 4 * 2 ^ 40.
Proof. exact p84_applies. Qed.

(** ** C85  HardSwish: the honest prover *)

(** False: no input of 13.0 or more can be proved by the honest prover,
    whatever the hint answers. *)
Theorem C85_hardswish_complete_refuted p c F G kappa x :
  prime p -> (0 < c)%nat -> (kappa < 61)%nat -> width_ok c (kappa + 4) -> 2 * 2 ^ Z.of_nat (rounded c (kappa + 4)) <= p ->
  13 * 2 ^ Z.of_nat kappa <= x -> x + 32 * 2 ^ Z.of_nat kappa + 2 ^ Z.of_nat (rounded c (kappa + 4)) < p ->
  run (honest_with G) (table_rowsb c F) (hardswish_element p c kappa (enc p x)) = None.
Proof. exact (p85_hardswish_complete_refuted p c F G kappa x). Qed.
Print Assumptions C85_hardswish_complete_refuted.

(** The honest prover succeeds for inputs from -11.0 up to 5.0. *)
Theorem C85_hardswish_complete_partial p c F G kappa x n :
  prime p -> (0 < c)%nat -> (kappa < 61)%nat -> width_ok c (kappa + 4) -> 2 * 2 ^ Z.of_nat (rounded c (kappa + 4)) <= p ->
  - 11 * 2 ^ Z.of_nat kappa <= x < 5 * 2 ^ Z.of_nat kappa ->
  nearest_quotient (hard_swish6 (2 ^ Z.of_nat kappa) x) (6 * 2 ^ Z.of_nat kappa) n ->
  G 11%nat [enc p x; enc p (2 ^ Z.of_nat kappa)] 1%nat = Some [enc p n] ->
  run (honest_with G) (table_rowsb c F) (hardswish_element p c kappa (enc p x)) = Some (enc p n).
Proof. exact (p85_hardswish_complete_partial p c F G kappa x n). Qed.
Print Assumptions C85_hardswish_complete_partial.

Example C85_applies : prime bn254_r /\ width_ok 12 (18 + 4) /\ 2 * 2 ^ Z.of_nat (rounded 12 (18 + 4)) <= bn254_r /\
  nearest_quotient (hard_swish6 (2 ^ 18) (2 ^ 18)) (6 * 2 ^ 18) 174763.
Proof. exact p85_applies. Qed.

(** ** C86  Sin and Cos *)

(** False: with scale 2^18 the table has 20 bits, so inputs are clamped to
    below 2.0.  For input 3.0 (786432) the honest output is the function's
    value at 524287, whatever function is tabulated. *)
Theorem C86_trig_value_refuted f G :
  (forall k, key 20 k -> - 2 ^ 18 <= f k <= 2 ^ 18) ->
  (forall k, key 20 k -> G 12%nat [enc bn254_r k; 2 ^ 18] 1%nat = Some [enc bn254_r (f k)]) ->
  trig_table_bits 18 32 = 20%nat /\
  run (honest_with G) (table_rowsb 12 (trig_tables bn254_r 20 f)) (trig_element bn254_r 12 18 32 20 (3 * 2 ^ 18)) =
  Some (enc bn254_r (f 524287)).
Proof. exact (p86_trig_value_refuted f G). Qed.
Print Assumptions C86_trig_value_refuted.

(** False: at the default of 64 bits the layer cannot even be built. *)
Theorem C86_trig_default_width_refuted p c H Tb x : run H Tb (trig_element p c 18 64 (trig_table_bits 18 64) x) = None.
Proof. exact (p86_trig_default_width_refuted p c H Tb x). Qed.
Print Assumptions C86_trig_default_width_refuted.

(** If max(table bits, n_bits) + 5 is a multiple of the chunk width, exactly
    the value at the clamped input is accepted. *)
Theorem C86_trig_sound_partial p c f kappa nb tw x y :
  prime p -> (0 < c)%nat -> (1 <= tw)%nat -> (Nat.max tw nb + 4 < 64)%nat -> (kappa < nb)%nat ->
  width_ok c (Nat.max tw nb + 4 + 1) -> width_ok c (nb + 1) ->
  2 * 2 ^ Z.of_nat (rounded c (Nat.max tw nb + 4 + 1)) <= p -> 2 * 2 ^ Z.of_nat (rounded c (nb + 1)) <= p ->
  (forall k, key tw k -> - 2 ^ Z.of_nat kappa <= f k <= 2 ^ Z.of_nat kappa) ->
  signed_fits (Nat.max tw nb + 4) x ->
  ((Nat.max tw nb + 4 + 1) mod c = 0)%nat ->
  accepts p (table_rows c (trig_tables p tw f)) (trig_element p c kappa nb tw (enc p x)) y <->
  y = enc p (f (clamp tw x)).
Proof. exact (p86_trig_sound_partial p c f kappa nb tw x y). Qed.
Print Assumptions C86_trig_sound_partial.

(** The honest prover succeeds on every input and outputs the value at the
    clamped input. *)
Theorem C86_trig_complete_partial p c f G kappa nb tw x :
  prime p -> (0 < c)%nat -> (1 <= tw)%nat -> (Nat.max tw nb + 4 < 64)%nat -> (kappa < nb)%nat ->
  width_ok c (Nat.max tw nb + 4 + 1) -> width_ok c (nb + 1) ->
  2 * 2 ^ Z.of_nat (rounded c (Nat.max tw nb + 4 + 1)) <= p -> 2 * 2 ^ Z.of_nat (rounded c (nb + 1)) <= p ->
  (forall k, key tw k -> - 2 ^ Z.of_nat kappa <= f k <= 2 ^ Z.of_nat kappa) ->
  signed_fits (Nat.max tw nb + 4) x ->
  (forall k, key tw k -> G 12%nat [enc p k; enc p (2 ^ Z.of_nat kappa)] 1%nat = Some [enc p (f k)]) ->
  run (honest_with G) (table_rowsb c (trig_tables p tw f)) (trig_element p c kappa nb tw (enc p x)) =
  Some (enc p (f (clamp tw x))).
Proof. exact (p86_trig_complete_partial p c f G kappa nb tw x). Qed.
Print Assumptions C86_trig_complete_partial.

Example C86_applies : prime bn254_r /\ (Nat.max 20 43 + 4 < 64)%nat /\ width_ok 12 (Nat.max 20 43 + 4 + 1) /\ width_ok 12 (43 + 1) /\
  2 * 2 ^ Z.of_nat (rounded 12 (Nat.max 20 43 + 4 + 1)) <= bn254_r /\ 2 * 2 ^ Z.of_nat (rounded 12 (43 + 1)) <= bn254_r /\
  ((Nat.max 20 43 + 4 + 1) mod 12 = 0)%nat /\ clamp 20 (2 ^ 18) = 2 ^ 18.
Proof. exact p86_applies. Qed.

(** ** C87  Sigmoid: accepted outputs *)

(** Every accepted output is the sigmoid up to the stated error: with e the
    tabulated exp(-x) at scale a^2 (a = 2^kappa) and K the rounding of the
    range-check widths (64 at the default), |y (a^2 + e) - a^3| <= (4 K + 2)
    a^2. *)
Theorem C87_sigmoid_sound p c tb kappa E nb x y K :
  prime p -> (0 < c)%nat -> (2 <= tb)%nat -> width_ok c (tb / 2) -> width_ok c (kappa + 1) ->
  2 * 2 ^ Z.of_nat tb <= p -> 2 ^ Z.of_nat (rounded c (tb / 2)) <= p -> 2 ^ Z.of_nat (rounded c (kappa + 1)) <= p ->
  width_ok c nb -> width_ok c (kappa + 2) ->
  let a := 2 ^ Z.of_nat kappa in let e := table_exp tb E (- x) in
  let R n := 2 ^ Z.of_nat (rounded c n) in
  0 <= e -> Z.abs x + 2 ^ Z.of_nat tb < p ->
  2 * ((2 * R nb + a) * (a * a + e + R (kappa + 1)%nat) + a * (a * a + 2 * a + R (kappa + 2)%nat)) <= p ->
  R (kappa + 1)%nat <= K * a -> R (kappa + 2)%nat <= K * a -> 2 * K + 4 <= a ->
  accepts p (table_rows c (exp_tables p tb E)) (sigmoid_element p c kappa nb tb (enc p x)) y ->
  exists Y, y = enc p Y /\ Z.abs (Y * (a * a + e) - a * a * a) <= (4 * K + 2) * (a * a).
Proof. exact (p87_sigmoid_sound p c tb kappa E nb x y K). Qed.
Print Assumptions C87_sigmoid_sound.

Example C87_applies : forall E, table_exp 24 E (- 2 ^ 18) = 25281000000 -> prime bn254_r /\ width_ok 12 (24 / 2) /\ width_ok 12 (18 + 1) /\
  2 * 2 ^ Z.of_nat 24 <= bn254_r /\ 2 ^ Z.of_nat (rounded 12 (24 / 2)) <= bn254_r /\ 2 ^ Z.of_nat (rounded 12 (18 + 1)) <= bn254_r /\
  width_ok 12 64 /\ width_ok 12 (18 + 2) /\ 2 ^ Z.of_nat (rounded 12 (18 + 2)) <= 64 * 2 ^ 18 /\
  2 * ((2 * 2 ^ Z.of_nat (rounded 12 64) + 2 ^ 18) * (2 ^ 18 * 2 ^ 18 + table_exp 24 E (- 2 ^ 18) + 2 ^ Z.of_nat (rounded 12 (18 + 1)))
       + 2 ^ 18 * (2 ^ 18 * 2 ^ 18 + 2 * 2 ^ 18 + 2 ^ Z.of_nat (rounded 12 (18 + 2)))) <= bn254_r.
Proof. exact p87_applies. Qed.

(** ** C88  Sigmoid: the honest prover *)

(** False at the default configuration: with the table's values at 6.0 and 0.0
    no output at all is accepted for the input -6.0. *)
Theorem C88_sigmoid_complete_refuted E y :
  E 1572864 = 105756438 -> E 0 = 262144 ->
  ~ accepts bn254_r (table_rows 12 (exp_tables bn254_r 24 E)) (sigmoid_element bn254_r 12 18 64 24 (enc bn254_r (- 6 * 2 ^ 18))) y.
Proof. exact (p88_sigmoid_complete_refuted E y). Qed.
Print Assumptions C88_sigmoid_complete_refuted.

(** The honest prover succeeds when the exponential of -x is below 3 (inputs
    above about -1.09). *)
Theorem C88_sigmoid_complete_partial p c tb kappa E G nb x n :
  prime p -> (0 < c)%nat -> (2 <= tb)%nat -> width_ok c (tb / 2) -> width_ok c (kappa + 1) ->
  2 * 2 ^ Z.of_nat tb <= p -> 2 ^ Z.of_nat (rounded c (tb / 2)) <= p -> 2 ^ Z.of_nat (rounded c (kappa + 1)) <= p ->
  width_ok c nb -> width_ok c (kappa + 2) ->
  let a := 2 ^ Z.of_nat kappa in let e := table_exp tb E (- x) / a in
  key tb (- x) -> 0 <= table_exp tb E (- x) -> e < 3 * a ->
  (kappa < nb)%nat -> 2 ^ Z.of_nat (rounded c nb) <= p -> 2 ^ Z.of_nat (rounded c (kappa + 2)) <= p -> 4 * a * a <= p ->
  answers_exp p tb a E G -> G 14%nat [enc p x; enc p a] 1%nat = Some [enc p n] ->
  nearest_quotient (a * a) (a + e) n ->
  run (honest_with G) (table_rowsb c (exp_tables p tb E)) (sigmoid_element p c kappa nb tb (enc p x)) = Some (enc p n).
Proof. exact (p88_sigmoid_complete_partial p c tb kappa E G nb x n). Qed.
Print Assumptions C88_sigmoid_complete_partial.

Example C88_applies : prime bn254_r /\ width_ok 12 (24 / 2) /\ width_ok 12 (18 + 1) /\
  2 * 2 ^ Z.of_nat 24 <= bn254_r /\ 2 ^ Z.of_nat (rounded 12 (24 / 2)) <= bn254_r /\ 2 ^ Z.of_nat (rounded 12 (18 + 1)) <= bn254_r /\
  width_ok 12 64 /\ width_ok 12 (18 + 2) /\ key 24 (- 2 ^ 18) /\ nearest_quotient (2 ^ 18 * 2 ^ 18) (2 ^ 18 + 96437) 191643.
Proof. exact p88_applies. Qed.

(** ** C89  Tanh: accepted outputs *)

(** Every accepted output is tanh up to the stated error, e being the
    tabulated exp(2x) at scale a^2. *)
Theorem C89_tanh_sound p c tb kappa E nb x y K :
  prime p -> (0 < c)%nat -> (2 <= tb)%nat -> width_ok c (tb / 2) -> width_ok c (kappa + 1) ->
  2 * 2 ^ Z.of_nat tb <= p -> 2 ^ Z.of_nat (rounded c (tb / 2)) <= p -> 2 ^ Z.of_nat (rounded c (kappa + 1)) <= p ->
  width_ok c (nb + 1) -> width_ok c (kappa + 3) ->
  let a := 2 ^ Z.of_nat kappa in let e := table_exp tb E (2 * x) in
  let R n := 2 ^ Z.of_nat (rounded c n) in
  0 <= e -> 2 * Z.abs x + 2 ^ Z.of_nat tb < p ->
  2 * ((3 * R (nb + 1)%nat + 2 * a) * (a * a + e + R (kappa + 1)%nat)
       + a * (a * a + e + R (kappa + 1)%nat + 6 * a + 2 * R (kappa + 3)%nat)) <= p ->
  R (kappa + 1)%nat <= K * a -> 10 <= a ->
  accepts p (table_rows c (exp_tables p tb E)) (tanh_element p c kappa nb tb (enc p x)) y ->
  exists Y, y = enc p Y /\ Z.abs (Y * (e + a * a) - a * (e - a * a)) <= (8 * K + 5) * (a * a).
Proof. exact (p89_tanh_sound p c tb kappa E nb x y K). Qed.
Print Assumptions C89_tanh_sound.

Example C89_applies : forall E, table_exp 24 E (2 * 2 ^ 18) = 507770000000 -> prime bn254_r /\ width_ok 12 (24 / 2) /\ width_ok 12 (18 + 1) /\
  2 * 2 ^ Z.of_nat 24 <= bn254_r /\ 2 ^ Z.of_nat (rounded 12 (24 / 2)) <= bn254_r /\ 2 ^ Z.of_nat (rounded 12 (18 + 1)) <= bn254_r /\
  width_ok 12 (64 + 1) /\ width_ok 12 (18 + 3) /\
  2 * ((3 * 2 ^ Z.of_nat (rounded 12 (64 + 1)) + 2 * 2 ^ 18) * (2 ^ 18 * 2 ^ 18 + table_exp 24 E (2 * 2 ^ 18) + 2 ^ Z.of_nat (rounded 12 (18 + 1)))
       + 2 ^ 18 * (2 ^ 18 * 2 ^ 18 + table_exp 24 E (2 * 2 ^ 18) + 2 ^ Z.of_nat (rounded 12 (18 + 1)) + 6 * 2 ^ 18 + 2 * 2 ^ Z.of_nat (rounded 12 (18 + 3)))) <= bn254_r.
Proof. exact p89_applies. Qed.

(** ** C90  Tanh: the honest prover *)

(** False at the default configuration: no output at all is accepted for the
    input 3.0. *)
Theorem C90_tanh_complete_refuted E y :
  E 1572864 = 105756438 -> E 0 = 262144 ->
  ~ accepts bn254_r (table_rows 12 (exp_tables bn254_r 24 E)) (tanh_element bn254_r 12 18 64 24 (enc bn254_r (3 * 2 ^ 18))) y.
Proof. exact (p90_tanh_complete_refuted E y). Qed.
Print Assumptions C90_tanh_complete_refuted.

(** The honest prover succeeds when the exponential of 2x is at most 5 (inputs
    up to about 0.8). *)
Theorem C90_tanh_complete_partial p c tb kappa E G nb x n :
  prime p -> (0 < c)%nat -> (2 <= tb)%nat -> width_ok c (tb / 2) -> width_ok c (kappa + 1) ->
  2 * 2 ^ Z.of_nat tb <= p -> 2 ^ Z.of_nat (rounded c (tb / 2)) <= p -> 2 ^ Z.of_nat (rounded c (kappa + 1)) <= p ->
  width_ok c (nb + 1) -> width_ok c (kappa + 3) ->
  let a := 2 ^ Z.of_nat kappa in let e := table_exp tb E (2 * x) / a in
  key tb (2 * x) -> 0 <= table_exp tb E (2 * x) -> e <= 5 * a ->
  (kappa < nb)%nat -> 2 ^ Z.of_nat (rounded c (nb + 1)) <= p -> 2 ^ Z.of_nat (rounded c (kappa + 3)) <= p -> 6 * a * a <= p ->
  answers_exp p tb a E G -> G 15%nat [enc p x; enc p a] 1%nat = Some [enc p n] ->
  nearest_quotient ((e - a) * a) (e + a) n ->
  run (honest_with G) (table_rowsb c (exp_tables p tb E)) (tanh_element p c kappa nb tb (enc p x)) = Some (enc p n).
Proof. exact (p90_tanh_complete_partial p c tb kappa E G nb x n). Qed.
Print Assumptions C90_tanh_complete_partial.

Example C90_applies : prime bn254_r /\ width_ok 12 (24 / 2) /\ width_ok 12 (18 + 1) /\
  2 * 2 ^ Z.of_nat 24 <= bn254_r /\ 2 ^ Z.of_nat (rounded 12 (24 / 2)) <= bn254_r /\ 2 ^ Z.of_nat (rounded 12 (18 + 1)) <= bn254_r /\
  width_ok 12 (64 + 1) /\ width_ok 12 (18 + 3) /\ key 24 (2 * 2 ^ 17) /\ nearest_quotient ((712581 - 2 ^ 18) * 2 ^ 18) (712581 + 2 ^ 18) 121141.
Proof. exact p90_applies. Qed.

(** ** C91  Log: accepted outputs *)

(** Every accepted output y has a tabulated exponential within (K + 6) a of a
    x (at scale a^2): it is the logarithm up to a relative error of (K + 6) /
    x. *)
Theorem C91_log_sound p c tb kappa E nb x y K :
  prime p -> (0 < c)%nat -> (2 <= tb)%nat -> width_ok c (tb / 2) -> width_ok c (kappa + 1) ->
  2 * 2 ^ Z.of_nat tb <= p -> 2 ^ Z.of_nat (rounded c (tb / 2)) <= p -> 2 ^ Z.of_nat (rounded c (kappa + 1)) <= p ->
  width_ok c nb -> width_ok c (kappa + 3) ->
  let a := 2 ^ Z.of_nat kappa in let R n := 2 ^ Z.of_nat (rounded c n) in
  - R nb < x < R nb ->
  (forall k, key tb k -> 0 <= table_exp tb E k /\
     table_exp tb E k + R nb * a + R (kappa + 1)%nat + 8 * a + 2 * R (kappa + 3)%nat + 2 * R nb <= p) ->
  R (kappa + 1)%nat <= K * a ->
  accepts p (table_rows c (exp_tables p tb E)) (log_element p c kappa nb tb (enc p x)) y ->
  exists Y, y = enc p Y /\ key tb Y /\ Z.abs (table_exp tb E Y - a * x) <= (K + 6) * a.
Proof. exact (p91_log_sound p c tb kappa E nb x y K). Qed.
Print Assumptions C91_log_sound.

Example C91_applies : forall E, (forall k, 0 <= E k <= 2 ^ 64) -> prime bn254_r /\ width_ok 12 (24 / 2) /\ width_ok 12 (18 + 1) /\
  2 * 2 ^ Z.of_nat 24 <= bn254_r /\ 2 ^ Z.of_nat (rounded 12 (24 / 2)) <= bn254_r /\ 2 ^ Z.of_nat (rounded 12 (18 + 1)) <= bn254_r /\
  width_ok 12 64 /\ width_ok 12 (18 + 3) /\
  (forall k, key 24 k -> 0 <= table_exp 24 E k /\ table_exp 24 E k + 2 ^ Z.of_nat (rounded 12 64) * 2 ^ 18
     + 2 ^ Z.of_nat (rounded 12 (18 + 1)) + 8 * 2 ^ 18 + 2 * 2 ^ Z.of_nat (rounded 12 (18 + 3)) + 2 * 2 ^ Z.of_nat (rounded 12 64) <= bn254_r).
Proof. exact p91_applies. Qed.

(** ** C92  Log: the honest prover *)

(** False at the default configuration: log(16.0) cannot be proved.  726817 is
    the nearest integer to ln(16) 2^18; it splits into the keys 724992 and
    1825, whose table values multiply to 15 units below 16.0. *)
Theorem C92_log_complete_refuted E G :
  E 724992 = 4165197 -> E 1825 = 263975 -> answers_exp bn254_r 24 (2 ^ 18) E G ->
  G 19%nat [2 ^ 22; 2 ^ 18] 1%nat = Some [726817] ->
  run (honest_with G) (table_rowsb 12 (exp_tables bn254_r 24 E)) (log_element bn254_r 12 18 64 24 (2 ^ 22)) = None.
Proof. exact (p92_log_complete_refuted E G). Qed.
Print Assumptions C92_log_complete_refuted.

(** The honest prover succeeds when the tabulated exponential of the rounded
    logarithm is within two units of the input. *)
Theorem C92_log_complete_partial p c tb kappa E G nb x n :
  prime p -> (0 < c)%nat -> (2 <= tb)%nat -> width_ok c (tb / 2) -> width_ok c (kappa + 1) ->
  2 * 2 ^ Z.of_nat tb <= p -> 2 ^ Z.of_nat (rounded c (tb / 2)) <= p -> 2 ^ Z.of_nat (rounded c (kappa + 1)) <= p ->
  width_ok c nb -> width_ok c (kappa + 3) ->
  let a := 2 ^ Z.of_nat kappa in
  1 <= x < 2 ^ Z.of_nat nb -> key tb n -> 0 <= table_exp tb E n < p ->
  2 ^ Z.of_nat (rounded c nb) <= p -> 2 ^ Z.of_nat (rounded c (kappa + 3)) <= p ->
  answers_exp p tb a E G -> G 19%nat [enc p x; enc p a] 1%nat = Some [enc p n] ->
  Z.abs (table_exp tb E n / a - x) <= 2 ->
  run (honest_with G) (table_rowsb c (exp_tables p tb E)) (log_element p c kappa nb tb (enc p x)) = Some (enc p n).
Proof. exact (p92_log_complete_partial p c tb kappa E G nb x n). Qed.
Print Assumptions C92_log_complete_partial.

Example C92_applies : forall E, E 180224 = 521336 -> E 1480 = 263628 -> prime bn254_r /\ width_ok 12 (24 / 2) /\ width_ok 12 (18 + 1) /\
  2 * 2 ^ Z.of_nat 24 <= bn254_r /\ 2 ^ Z.of_nat (rounded 12 (24 / 2)) <= bn254_r /\ 2 ^ Z.of_nat (rounded 12 (18 + 1)) <= bn254_r /\
  width_ok 12 64 /\ width_ok 12 (18 + 3) /\ key 24 181704 /\ Z.abs (table_exp 24 E 181704 / 2 ^ 18 - 2 ^ 19) <= 2.
Proof. exact p92_applies. Qed.

(** ** C93  Gelu: accepted outputs *)

(** False: the output is not range checked; for input 0 (with a table that has
    exp(0) = 1) the field element 1 / (2 scale) is accepted. *)
Theorem C93_gelu_sound_refuted p c tb kappa E coef outer :
  prime p -> (0 < c)%nat -> (2 <= tb)%nat -> width_ok c (tb / 2) -> width_ok c (kappa + 1) ->
  2 * 2 ^ Z.of_nat tb <= p -> 2 ^ Z.of_nat (rounded c (tb / 2)) <= p -> 2 ^ Z.of_nat (rounded c (kappa + 1)) <= p ->
  (1 <= kappa)%nat -> width_ok c kappa -> width_ok c (2 * kappa) -> width_ok c (kappa + 4) ->
  2 ^ Z.of_nat (rounded c kappa) <= p -> 2 ^ Z.of_nat (rounded c (2 * kappa)) <= p -> 2 ^ Z.of_nat (rounded c (kappa + 4)) <= p ->
  E 0 = 2 ^ Z.of_nat kappa ->
  exists y, accepts p (table_rows c (exp_tables p tb E)) (gelu_element p c kappa tb coef outer 0) y /\
    (2 * 2 ^ Z.of_nat kappa * y) mod p = 1.
Proof. exact (p93_gelu_sound_refuted p c tb kappa E coef outer). Qed.
Print Assumptions C93_gelu_sound_refuted.

Example C93_applies : prime bn254_r /\ width_ok 12 (24 / 2) /\ width_ok 12 (18 + 1) /\
  2 * 2 ^ Z.of_nat 24 <= bn254_r /\ 2 ^ Z.of_nat (rounded 12 (24 / 2)) <= bn254_r /\ 2 ^ Z.of_nat (rounded 12 (18 + 1)) <= bn254_r /\
  width_ok 12 18 /\ width_ok 12 (2 * 18) /\ width_ok 12 (18 + 4) /\
  2 ^ Z.of_nat (rounded 12 18) <= bn254_r /\ 2 ^ Z.of_nat (rounded 12 (2 * 18)) <= bn254_r /\ 2 ^ Z.of_nat (rounded 12 (18 + 4)) <= bn254_r.
Proof. exact p93_applies. Qed.

(** ** C94  Gelu: the honest prover *)

(** False at the default configuration: -1.0 cannot be proved, whatever table
    and hints are used; 11722 and 418321 are the layer's constants at scale
    2^18. *)
Theorem C94_gelu_complete_refuted E G :
  run (honest_with G) (table_rowsb 12 (exp_tables bn254_r 24 E))
    (gelu_element bn254_r 12 18 24 11722 418321 (enc bn254_r (- 2 ^ 18))) = None.
Proof. exact (p94_gelu_complete_refuted E G). Qed.
Print Assumptions C94_gelu_complete_refuted.

(** The honest prover succeeds on inputs that are not negative, as long as the
    argument of the exponential stays in the table's range; z is the argument
    the circuit computes. *)
Theorem C94_gelu_complete_partial p c tb kappa E G coef outer x n :
  prime p -> (0 < c)%nat -> (2 <= tb)%nat -> width_ok c (tb / 2) -> width_ok c (kappa + 1) ->
  2 * 2 ^ Z.of_nat tb <= p -> 2 ^ Z.of_nat (rounded c (tb / 2)) <= p -> 2 ^ Z.of_nat (rounded c (kappa + 1)) <= p ->
  (1 <= kappa)%nat -> width_ok c kappa -> width_ok c (2 * kappa) -> width_ok c (kappa + 4) ->
  2 ^ Z.of_nat (rounded c kappa) <= p -> 2 ^ Z.of_nat (rounded c (2 * kappa)) <= p -> 2 ^ Z.of_nat (rounded c (kappa + 4)) <= p ->
  let a := 2 ^ Z.of_nat kappa in
  let cube := coef * (x * x / a * x) in let z := outer * (x + cube / (a * a)) / a in
  let e := table_exp tb E (- z) in
  a * a < p -> 0 <= x -> 0 <= coef -> 0 <= outer -> x * x < p -> cube < p -> outer * (x + cube / (a * a)) < p ->
  key tb (- z) -> 0 <= e < p -> e / a < 9 * a ->
  answers_exp p tb a E G -> G 16%nat [enc p x; enc p a] 1%nat = Some [enc p n] ->
  nearest_quotient (x * a) (a + e / a) n ->
  run (honest_with G) (table_rowsb c (exp_tables p tb E)) (gelu_element p c kappa tb coef outer (enc p x)) = Some (enc p n).
Proof. exact (p94_gelu_complete_partial p c tb kappa E G coef outer x n). Qed.
Print Assumptions C94_gelu_complete_partial.

Example C94_applies : prime bn254_r /\ width_ok 12 (24 / 2) /\ width_ok 12 (18 + 1) /\
  2 * 2 ^ Z.of_nat 24 <= bn254_r /\ 2 ^ Z.of_nat (rounded 12 (24 / 2)) <= bn254_r /\ 2 ^ Z.of_nat (rounded 12 (18 + 1)) <= bn254_r /\
  width_ok 12 18 /\ width_ok 12 (2 * 18) /\ width_ok 12 (18 + 4) /\
  2 ^ Z.of_nat (rounded 12 18) <= bn254_r /\ 2 ^ Z.of_nat (rounded 12 (2 * 18)) <= bn254_r /\ 2 ^ Z.of_nat (rounded 12 (18 + 4)) <= bn254_r /\
  (let a := 2 ^ 18 in let cube := 11722 * (a * a / a * a) in 418321 * (a + cube / (a * a)) / a = 437026 /\ key 24 (- 437026)).
Proof. exact p94_applies. Qed.

(** ** C95  Erf: accepted outputs *)

(** False: the final tolerance of 4.0 exceeds the range of the function, so
    for input 0 every output between -1.0 and 1.0 is accepted; V is the value
    the polynomial part has there. *)
Theorem C95_erf_sound_refuted p c tb kappa E k nb Y :
  prime p -> (0 < c)%nat -> (2 <= tb)%nat -> width_ok c (tb / 2) -> width_ok c (kappa + 1) ->
  2 * 2 ^ Z.of_nat tb <= p -> 2 ^ Z.of_nat (rounded c (tb / 2)) <= p -> 2 ^ Z.of_nat (rounded c (kappa + 1)) <= p ->
  width_ok c kappa -> width_ok c nb -> width_ok c (nb + 1) -> width_ok c (kappa + 2) -> width_ok c (kappa + 3) ->
  2 ^ Z.of_nat (rounded c kappa) <= p -> 2 ^ Z.of_nat (rounded c nb) <= p -> 2 ^ Z.of_nat (rounded c (nb + 1)) <= p ->
  2 ^ Z.of_nat (rounded c (kappa + 2)) <= p -> 2 ^ Z.of_nat (rounded c (kappa + 3)) <= p -> (kappa < nb)%nat ->
  let a := 2 ^ Z.of_nat kappa in
  let V := a - (e_a1 k + (e_a3 k + e_a5 k)) + (e_a2 k + e_a4 k) in
  E 0 = a -> - (3 * a) < V < 3 * a -> - a <= Y <= a ->
  accepts p (table_rows c (exp_tables p tb E)) (erf_element p c kappa nb tb k 0) (enc p Y).
Proof. exact (p95_erf_sound_refuted p c tb kappa E k nb Y). Qed.
Print Assumptions C95_erf_sound_refuted.

(** More generally, whatever the input, once the parts before the final
    comparison are satisfied with a value below 3.0 in size, the output is
    free between -1.0 and 1.0. *)
Theorem C95_erf_free_partial p c tb kappa E k nb x ax sg V Y :
  prime p -> (0 < c)%nat -> (2 <= tb)%nat -> width_ok c (kappa + 3) -> width_ok c (nb + 1) ->
  2 ^ Z.of_nat (rounded c (kappa + 3)) <= p -> 2 ^ Z.of_nat (rounded c (nb + 1)) <= p -> (kappa < nb)%nat ->
  let T := table_rows c (exp_tables p tb E) in let a := 2 ^ Z.of_nat kappa in
  accepts p T (erf_abs p c nb x) (ax, enc p sg) -> sg = 1 \/ sg = -1 ->
  accepts p T (erf_poly p c kappa nb tb k ax) (enc p V) -> - (3 * a) < V < 3 * a -> - a <= Y <= a ->
  accepts p T (erf_element p c kappa nb tb k x) (enc p Y).
Proof. exact (p95_erf_free_partial p c tb kappa E k nb x ax sg V Y). Qed.
Print Assumptions C95_erf_free_partial.

(** What does hold: if n_bits + 1 is a multiple of the chunk width, accepted
    outputs lie between -1.0 and 1.0. *)
Theorem C95_erf_range_partial p c tb kappa E k nb x y :
  prime p -> (0 < c)%nat -> (2 <= tb)%nat -> width_ok c (nb + 1) -> (kappa < nb)%nat ->
  ((nb + 1) mod c = 0)%nat -> 2 * 2 ^ Z.of_nat (nb + 1) <= p ->
  accepts p (table_rows c (exp_tables p tb E)) (erf_element p c kappa nb tb k x) y ->
  exists Y, - 2 ^ Z.of_nat kappa <= Y <= 2 ^ Z.of_nat kappa /\ y = enc p Y.
Proof. exact (p95_erf_range_partial p c tb kappa E k nb x y). Qed.
Print Assumptions C95_erf_range_partial.

Example C95_applies : prime bn254_r /\ width_ok 12 (24 / 2) /\ width_ok 12 (18 + 1) /\
  2 * 2 ^ Z.of_nat 24 <= bn254_r /\ 2 ^ Z.of_nat (rounded 12 (24 / 2)) <= bn254_r /\ 2 ^ Z.of_nat (rounded 12 (18 + 1)) <= bn254_r /\
  width_ok 12 18 /\ width_ok 12 64 /\ width_ok 12 (64 + 1) /\ width_ok 12 (18 + 2) /\ width_ok 12 (18 + 3) /\
  2 ^ Z.of_nat (rounded 12 18) <= bn254_r /\ 2 ^ Z.of_nat (rounded 12 64) <= bn254_r /\ 2 ^ Z.of_nat (rounded 12 (64 + 1)) <= bn254_r /\
  2 ^ Z.of_nat (rounded 12 (18 + 2)) <= bn254_r /\ 2 ^ Z.of_nat (rounded 12 (18 + 3)) <= bn254_r /\
  2 ^ 18 - (66802 + (372615 + 278241)) + (74579 + 380935) = 0 /\ width_ok 12 (59 + 1) /\ ((59 + 1) mod 12 = 0)%nat /\ 2 * 2 ^ Z.of_nat (59 + 1) <= bn254_r.
Proof. exact p95_applies. Qed.

(** ** C96  LayerNormalization: accepted outputs *)

(** False at the default configuration: for the lane (-1.0, 1.0) with gamma
    1.0 and beta 0.0, whose normalisation is (-1.0, 1.0), the circuit accepts
    (0.0, 0.0). *)
Theorem C96_layer_norm_sound_refuted F :
  accepts bn254_r (table_rows 12 F)
    (layer_norm_lane bn254_r 12 18 64 20 [2 ^ 18; 2 ^ 18] [0; 0] (map (enc bn254_r) [- 2 ^ 18; 2 ^ 18])) [0; 0].
Proof. exact (p96_layer_norm_sound_refuted F). Qed.
Print Assumptions C96_layer_norm_sound_refuted.

(** Whatever the lane, all outputs that round beta within the tolerance are
    accepted: the prover may claim an inverse deviation of zero. *)
Theorem C96_layer_norm_zero_deviation_partial p c F kappa nb mb gammas betas xs mean ys :
  prime p -> (0 < c)%nat ->
  let a := 2 ^ Z.of_nat kappa in let n := Z.of_nat (length xs) in
  let R w := 2 ^ Z.of_nat (rounded c w) in
  let tol := 2 * fold_right Z.max 0 (map Z.abs gammas) + a + 4 in
  let ds := (Nat.max (2 * nb + 1) (kappa + 1) - kappa)%nat in
  let wt := Z.to_nat (Z.log2_up (2 * tol + 1)) in
  let wm := Z.to_nat (Z.log2_up (2 * n + 1)) in
  let wv := Z.to_nat (Z.log2_up (2 * (n * a * a))) in
  xs <> [] -> length gammas = length xs -> length betas = length xs ->
  width_ok c kappa -> width_ok c (ds + 1) -> width_ok c nb -> width_ok c (nb + 1) -> width_ok c (mb + 1) ->
  width_ok c wt -> width_ok c wm -> width_ok c wv ->
  R kappa <= p -> R (ds + 1)%nat <= p -> R nb <= p -> R (nb + 1)%nat <= p -> R (mb + 1)%nat <= p ->
  R wt <= p -> R wm <= p -> R wv <= p ->
  Z.abs (zsum xs - n * mean) <= n -> - 2 ^ Z.of_nat nb <= mean < 2 ^ Z.of_nat nb ->
  Forall2 (fun b y => - 2 ^ Z.of_nat (nb - 1) <= y < 2 ^ Z.of_nat nb - 2 ^ Z.of_nat (nb - 1) /\ Z.abs (y * a - b) <= tol) betas ys ->
  accepts p (table_rows c F) (layer_norm_lane p c kappa nb mb gammas betas (map (enc p) xs)) (map (enc p) ys).
Proof. exact (p96_layer_norm_zero_deviation_partial p c F kappa nb mb gammas betas xs mean ys). Qed.
Print Assumptions C96_layer_norm_zero_deviation_partial.

(** What accepted outputs do satisfy: they are beta + gamma q within the
    tolerance, where q is (x - mean) inv / a rounded, for one mean (of the
    lane) and one inv of the prover's choice, and the squares of the q sum to
    less than 2^wv.  What is missing is a lower bound on that sum. *)
Theorem C96_layer_norm_sound_partial p c F kappa nb mb gammas betas xs ys B Gm Bb :
  prime p -> (0 < c)%nat ->
  let a := 2 ^ Z.of_nat kappa in let n := Z.of_nat (length xs) in
  let R w := 2 ^ Z.of_nat (rounded c w) in
  let tol := 2 * fold_right Z.max 0 (map Z.abs gammas) + a + 4 in
  let ds := (Nat.max (2 * nb + 1) (kappa + 1) - kappa)%nat in
  let wt := Z.to_nat (Z.log2_up (2 * tol + 1)) in
  let wm := Z.to_nat (Z.log2_up (2 * n + 1)) in
  let wv := Z.to_nat (Z.log2_up (2 * (n * a * a))) in
  xs <> [] -> length gammas = length xs -> length betas = length xs ->
  width_ok c kappa -> width_ok c (ds + 1) -> width_ok c nb -> width_ok c (nb + 1) -> width_ok c (mb + 1) ->
  width_ok c wt -> width_ok c wm -> width_ok c wv ->
  R kappa <= p -> R (ds + 1)%nat <= p -> R nb <= p -> R (nb + 1)%nat <= p -> R (mb + 1)%nat <= p ->
  R wt <= p -> R wm <= p -> R wv <= p ->
  (forall x, In x xs -> Z.abs x <= B) -> (forall g, In g gammas -> Z.abs g <= Gm) -> (forall b, In b betas -> Z.abs b <= Bb) ->
  (B + R (nb + 1)%nat) * R nb + 2 * (a * R (ds + 1)%nat) + R kappa < p -> R (ds + 1)%nat + 2 * R (mb + 1)%nat < p ->
  a * (R nb + 2 ^ Z.of_nat nb) + R (mb + 1)%nat * Gm + Bb + tol + 2 * R wt < p ->
  n * (B + R (nb + 1)%nat) + n + 2 * R wm < p -> n * (R (mb + 1)%nat * R (mb + 1)%nat) + 2 * R wv < p ->
  accepts p (table_rows c F) (layer_norm_lane p c kappa nb mb gammas betas (map (enc p) xs)) ys ->
  exists mean inv Ys Qs, ys = map (enc p) Ys /\ length Ys = length xs /\ length Qs = length xs /\
    - (R wm - 2 ^ Z.of_nat wm) <= zsum xs - n * mean + n < 2 ^ Z.of_nat wm /\
    2 ^ Z.of_nat nb - R nb <= inv < 2 ^ Z.of_nat nb /\
    zsum (map (fun q => q * q) Qs) < 2 ^ Z.of_nat wv /\
    forall i, (i < length xs)%nat -> let y := nth i Ys 0 in let q := nth i Qs 0 in
      2 ^ Z.of_nat nb - R nb <= y + 2 ^ Z.of_nat (nb - 1) < 2 ^ Z.of_nat nb /\
      2 ^ Z.of_nat (mb + 1) - R (mb + 1)%nat <= q + 2 ^ Z.of_nat mb < 2 ^ Z.of_nat (mb + 1) /\
      a - R kappa <= (nth i xs 0 - mean) * inv - a * q < a /\
      Z.abs (y * a - (q * nth i gammas 0 + nth i betas 0)) <= tol + (R wt - 2 ^ Z.of_nat wt).
Proof. exact (p96_layer_norm_sound_partial p c F kappa nb mb gammas betas xs ys B Gm Bb). Qed.
Print Assumptions C96_layer_norm_sound_partial.

Example C96_applies : prime bn254_r /\ width_ok 12 18 /\ width_ok 12 (Nat.max (2 * 64 + 1) (18 + 1) - 18 + 1) /\ width_ok 12 64 /\ width_ok 12 65 /\ width_ok 12 21 /\
  Z.log2_up (2 * (2 * 2 ^ 18 + 2 ^ 18 + 4) + 1) = 21 /\ Z.log2_up (2 * 2 + 1) = 3 /\ Z.log2_up (2 * (2 * 2 ^ 18 * 2 ^ 18)) = 38 /\
  width_ok 12 3 /\ width_ok 12 38 /\
  (2 ^ 63 + 2 ^ Z.of_nat (rounded 12 65)) * 2 ^ Z.of_nat (rounded 12 64) + 2 * (2 ^ 18 * 2 ^ Z.of_nat (rounded 12 112)) + 2 ^ Z.of_nat (rounded 12 18) < bn254_r.
Proof. exact p96_applies. Qed.

(** ** C97  LayerNormalization: the honest prover *)

(** False at the default configuration: the honest prover cannot prove the
    lane (-1000.0, 1000.0) with gamma 1.0 and beta 0.0.  Its hint gives the
    outputs (-1.0, 1.0), the mean 0 and the inverse deviation 0.001 rounded to
    262 / 2^18; with the rounded inverse deviation the circuit gets 0.99945. *)
Theorem C97_layer_norm_complete_refuted F G :
  G 21%nat (map (enc bn254_r) ([- 1000 * 2 ^ 18; 1000 * 2 ^ 18] ++ [2 ^ 18; 2 ^ 18] ++ [0; 0] ++ [2 ^ 18])) 4%nat =
    Some (map (enc bn254_r) ([- 2 ^ 18; 2 ^ 18] ++ [0; 262])) ->
  nearest_quotient (2 ^ 18) 1000 262 /\
  run (honest_with G) (table_rowsb 12 F)
    (layer_norm_lane bn254_r 12 18 64 20 [2 ^ 18; 2 ^ 18] [0; 0] (map (enc bn254_r) [- 1000 * 2 ^ 18; 1000 * 2 ^ 18])) = None.
Proof. exact (p97_layer_norm_complete_refuted F G). Qed.
Print Assumptions C97_layer_norm_complete_refuted.

(** The honest prover succeeds when the outputs of its hint agree, within the
    tolerance, with the normalisation computed with the rounded mean and
    inverse deviation. *)
Theorem C97_layer_norm_complete_partial p c F G kappa nb mb gammas betas xs ys mean inv :
  prime p -> (0 < c)%nat ->
  let a := 2 ^ Z.of_nat kappa in let n := Z.of_nat (length xs) in
  let R w := 2 ^ Z.of_nat (rounded c w) in
  let tol := 2 * fold_right Z.max 0 (map Z.abs gammas) + a + 4 in
  let ds := (Nat.max (2 * nb + 1) (kappa + 1) - kappa)%nat in
  let wt := Z.to_nat (Z.log2_up (2 * tol + 1)) in
  let wm := Z.to_nat (Z.log2_up (2 * n + 1)) in
  let wv := Z.to_nat (Z.log2_up (2 * (n * a * a))) in
  xs <> [] -> length gammas = length xs -> length betas = length xs ->
  width_ok c kappa -> width_ok c (ds + 1) -> width_ok c nb -> width_ok c (nb + 1) -> width_ok c (mb + 1) ->
  width_ok c wt -> width_ok c wm -> width_ok c wv ->
  R kappa <= p -> R (ds + 1)%nat <= p -> R nb <= p -> R (nb + 1)%nat <= p -> R (mb + 1)%nat <= p ->
  R wt <= p -> R wm <= p -> R wv <= p ->
  let q x := (x - mean) * inv / a in
  a * R (ds + 1)%nat + R kappa <= p ->
  G 21%nat (map (enc p) xs ++ map (enc p) gammas ++ map (enc p) betas ++ [enc p a]) (length xs + 2)%nat =
    Some (map (enc p) ys ++ [enc p mean; enc p inv]) ->
  length ys = length xs -> 0 <= inv < 2 ^ Z.of_nat nb ->
  Z.abs (zsum xs - n * mean) <= n -> - 2 ^ Z.of_nat nb <= mean < 2 ^ Z.of_nat nb ->
  zsum (map (fun x => q x * q x) xs) < 2 * (n * a * a) ->
  (forall i, (i < length xs)%nat -> let x := nth i xs 0 in let y := nth i ys 0 in
     - 2 ^ Z.of_nat (nb - 1) <= y < 2 ^ Z.of_nat nb - 2 ^ Z.of_nat (nb - 1) /\
     Z.abs ((x - mean) * inv) < a * 2 ^ Z.of_nat ds /\ - 2 ^ Z.of_nat mb <= q x < 2 ^ Z.of_nat mb /\
     Z.abs (y * a - (q x * nth i gammas 0 + nth i betas 0)) <= tol) ->
  run (honest_with G) (table_rowsb c F) (layer_norm_lane p c kappa nb mb gammas betas (map (enc p) xs)) = Some (map (enc p) ys).
Proof. exact (p97_layer_norm_complete_partial p c F G kappa nb mb gammas betas xs ys mean inv). Qed.
Print Assumptions C97_layer_norm_complete_partial.

Example C97_applies : 2 ^ 18 * 2 ^ Z.of_nat (rounded 12 112) + 2 ^ Z.of_nat (rounded 12 18) <= bn254_r /\
  let q x := (x - 0) * 2 ^ 18 / 2 ^ 18 in
  zsum (map (fun x => q x * q x) [- 2 ^ 18; 2 ^ 18]) < 2 * (2 * 2 ^ 18 * 2 ^ 18) /\
  Z.abs (2 ^ 18 * 2 ^ 18 - (q (2 ^ 18) * 2 ^ 18 + 0)) <= 2 * fold_right Z.max 0 (map Z.abs [2 ^ 18; 2 ^ 18]) + 2 ^ 18 + 4.
Proof. exact p97_applies. Qed.

(** ** C98  Softmax: accepted outputs *)

(** Every accepted lane is the softmax up to the stated error: with e(k) the
    tabulated exponential at scale a^2, some element m of the lane as the
    shift and S the sum of all e(x - m), every output y of an element x
    satisfies |y S - a e(x - m)| <= n (8 K + 1) a^2, where S >= a^2 and K is
    the rounding of the range-check widths; the outputs lie between 0 and 1.0
    and sum to 1.0 up to the rounding of the range-check widths. *)
Theorem C98_softmax_sound p c tb kappa E nb xs ys K B :
  prime p -> (0 < c)%nat -> (2 <= tb)%nat -> width_ok c (tb / 2) -> width_ok c (kappa + 1) ->
  2 * 2 ^ Z.of_nat tb <= p -> 2 ^ Z.of_nat (rounded c (tb / 2)) <= p -> 2 ^ Z.of_nat (rounded c (kappa + 1)) <= p ->
  let a := 2 ^ Z.of_nat kappa in let n := Z.of_nat (length xs) in
  let R w := 2 ^ Z.of_nat (rounded c w) in
  let w2 := Z.to_nat (Z.log2_up (2 * (n * a))) in
  let w3 := Z.to_nat (Z.log2_up (2 * n + 1)) in
  xs <> [] -> width_ok c (tb - 1) -> width_ok c nb -> width_ok c w2 -> width_ok c w3 ->
  R (tb - 1)%nat <= p -> R nb <= p -> R w2 <= p -> n * R nb + a + n + 2 * R w3 < p ->
  (forall x x', In x xs -> In x' xs -> Z.abs (x - x') + 2 ^ Z.of_nat tb + R (tb - 1)%nat < p) ->
  a + 2 * R nb <= p -> E 0 = a -> (forall k, key tb k -> 0 <= table_exp tb E k <= B) ->
  2 * (R nb * (n * B + n * R (kappa + 1)%nat) + a * (n * B + R (kappa + 1)%nat + n * a + R w2)) < p ->
  R (kappa + 1)%nat <= K * a -> R w2 <= K * n * a -> 2 * n * K <= a ->
  accepts p (table_rows c (exp_tables p tb E)) (softmax_lane p c kappa nb tb (map (enc p) xs)) ys ->
  exists m Ys, In m xs /\ ys = map (enc p) Ys /\ length Ys = length xs /\
    Forall (fun y => - (R nb - 2 ^ Z.of_nat nb) <= y <= a + (R nb - 2 ^ Z.of_nat nb)) Ys /\
    Z.abs (zsum Ys - a) <= R w3 + n /\
    let S := zsum (map (fun x => table_exp tb E (x - m)) xs) in
    a * a <= S /\
    forall i, (i < length xs)%nat ->
      Z.abs (nth i Ys 0 * S - a * table_exp tb E (nth i xs 0 - m)) <= n * (8 * K + 1) * (a * a).
Proof. exact (p98_softmax_sound p c tb kappa E nb xs ys K B). Qed.
Print Assumptions C98_softmax_sound.

Example C98_applies : forall E, E 0 = 2 ^ 18 -> (forall k, 0 <= E k <= 2 ^ 64) -> prime bn254_r /\ width_ok 12 (24 / 2) /\ width_ok 12 (18 + 1) /\
  2 * 2 ^ Z.of_nat 24 <= bn254_r /\ 2 ^ Z.of_nat (rounded 12 (24 / 2)) <= bn254_r /\ 2 ^ Z.of_nat (rounded 12 (18 + 1)) <= bn254_r /\
  width_ok 12 (24 - 1) /\ Z.log2_up (2 * (10 * 2 ^ 18)) = 23 /\ width_ok 12 23 /\
  Z.log2_up (2 * 10 + 1) = 5 /\ width_ok 12 5 /\ (forall k, 0 <= table_exp 24 E k <= 2 ^ 128) /\
  2 * (2 ^ Z.of_nat (rounded 12 64) * (10 * 2 ^ 128 + 10 * 2 ^ Z.of_nat (rounded 12 19)) + 2 ^ 18 * (10 * 2 ^ 128 + 2 ^ Z.of_nat (rounded 12 19) + 10 * 2 ^ 18 + 2 ^ Z.of_nat (rounded 12 23))) < bn254_r /\
  2 ^ Z.of_nat (rounded 12 19) <= 64 * 2 ^ 18 /\ 2 ^ Z.of_nat (rounded 12 23) <= 64 * 10 * 2 ^ 18 /\ 2 * 10 * 64 <= 2 ^ 18.
Proof. exact p98_applies. Qed.

(** ** C99  Softmax: the honest prover *)

(** False at the default configuration: for the lane (0.0, -33.0) no output at
    all is accepted, the difference being outside the exponential's table. *)
Theorem C99_softmax_complete_refuted E ys :
  ~ accepts bn254_r (table_rows 12 (exp_tables bn254_r 24 E))
      (softmax_lane bn254_r 12 18 64 24 (map (enc bn254_r) [0; - 33 * 2 ^ 18])) ys.
Proof. exact (p99_softmax_complete_refuted E ys). Qed.
Print Assumptions C99_softmax_complete_refuted.

(** The honest prover succeeds when all differences from the maximum m are
    below the table's range (32.0 at the default) and its hint rounds the
    quotients of the tabulated exponentials. *)
Theorem C99_softmax_complete_partial p c tb kappa E G nb xs m ns rest :
  prime p -> (0 < c)%nat -> (2 <= tb)%nat -> width_ok c (tb / 2) -> width_ok c (kappa + 1) ->
  2 * 2 ^ Z.of_nat tb <= p -> 2 ^ Z.of_nat (rounded c (tb / 2)) <= p -> 2 ^ Z.of_nat (rounded c (kappa + 1)) <= p ->
  let a := 2 ^ Z.of_nat kappa in let n := Z.of_nat (length xs) in
  let R w := 2 ^ Z.of_nat (rounded c w) in
  let w2 := Z.to_nat (Z.log2_up (2 * (n * a))) in
  let w3 := Z.to_nat (Z.log2_up (2 * n + 1)) in
  xs <> [] -> width_ok c (tb - 1) -> width_ok c nb -> width_ok c w2 -> width_ok c w3 ->
  R (tb - 1)%nat <= p -> R nb <= p -> R w2 <= p -> n * R nb + a + n + 2 * R w3 < p ->
  (forall x x', In x xs -> In x' xs -> Z.abs (x - x') + 2 ^ Z.of_nat tb + R (tb - 1)%nat < p) ->
  let e x := table_exp tb E (x - m) / a in
  E 0 = a -> (kappa < nb)%nat -> In m xs ->
  (forall x, In x xs -> x <= m /\ m - x < 2 ^ Z.of_nat (tb - 1)) ->
  (forall x, In x xs -> 0 <= table_exp tb E (x - m) <= a * a) -> a * a < p ->
  answers_exp p tb a E G ->
  G 20%nat (map (enc p) xs ++ [enc p a]) (2 * length xs + 1)%nat = Some (map (enc p) ns ++ enc p m :: rest) ->
  length rest = length xs ->
  Forall2 (fun x k => nearest_quotient (e x * a) (zsum (map e xs)) k) xs ns ->
  run (honest_with G) (table_rowsb c (exp_tables p tb E)) (softmax_lane p c kappa nb tb (map (enc p) xs)) = Some (map (enc p) ns).
Proof. exact (p99_softmax_complete_partial p c tb kappa E G nb xs m ns rest). Qed.
Print Assumptions C99_softmax_complete_partial.

Example C99_applies : prime bn254_r /\ width_ok 12 (24 / 2) /\ width_ok 12 (18 + 1) /\
  2 * 2 ^ Z.of_nat 24 <= bn254_r /\ 2 ^ Z.of_nat (rounded 12 (24 / 2)) <= bn254_r /\ 2 ^ Z.of_nat (rounded 12 (18 + 1)) <= bn254_r /\
  width_ok 12 (24 - 1) /\ width_ok 12 64 /\ width_ok 12 20 /\ width_ok 12 3 /\ Z.log2_up (2 * (2 * 2 ^ 18)) = 20 /\
  Forall2 (fun x k => nearest_quotient (x * 2 ^ 18) (2 ^ 18 + 96437) k) [2 ^ 18; 96437] [191643; 70501].
Proof. exact p99_applies. Qed.
