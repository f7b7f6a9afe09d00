(** C01-C03: range checks.

    Reading guide: [accepts p (table_rows c F) m a] says that some assignment of
    the hint outputs (arbitrary field elements) satisfies every constraint of
    the gadget [m], puts every looked-up row in its table, and makes the result
    [a].  [run honest_hint ...] is witness generation with the code's hints. *)
From Coq Require Import ZArith List Bool Znumtheory Lia.
From Verif Require Import Base.Pocklington Spec.Numbers Model.Builder Model.Gadgets
  Proofs.RangeCheck Proofs.Gadgets Proofs.Division Proofs.BitRange.
Import ListNotations.
Local Open Scope Z_scope.

(** C01.  The chunk size [c] divides the width [n]: an accepted value is below 2^n
    (and every such value is accepted). *)
Theorem C01_range_check_sound p c F x n :
  0 < p -> (0 < c)%nat -> (0 < n <= 128)%nat -> (n mod c = 0)%nat -> 2 ^ Z.of_nat n <= p ->
  0 <= x < p ->
  accepts p (table_rows c F) (range_check p c x n) tt <-> x < 2 ^ Z.of_nat n.
Proof. intros Hp Hc Hn Hd Hs Hx. apply range_check_exact; auto. split; auto. Qed.
Print Assumptions C01_range_check_sound.

Example C01_applies : 0 < goldilocks_p /\ (0 < 12)%nat /\ (0 < 36 <= 128)%nat /\ (36 mod 12 = 0)%nat /\
  2 ^ Z.of_nat 36 <= goldilocks_p /\ 0 <= 2 ^ 36 - 1 < goldilocks_p /\ 0 <= 2 ^ 36 < goldilocks_p.
Proof. unfold goldilocks_p. repeat split; try (vm_compute; congruence); lia. Qed.

(** C01, the bit-decomposition variant: accepted exactly for values below
    2^n, and the returned bits are the binary expansion, least significant first. *)
Theorem C01_bit_range_check_sound p c F x n bits :
  prime p -> (0 < n < 256)%nat -> 2 ^ Z.of_nat n < p / 2 -> 0 <= x < p ->
  accepts p (table_rows c F) (range_check_pow2_unsigned p x n) bits <->
  x < 2 ^ Z.of_nat n /\ bits = bits_of x n.
Proof. exact (fun Hp Hn Hs Hx => bit_range_exact p Hp c F x n bits Hn Hs Hx). Qed.
Print Assumptions C01_bit_range_check_sound.

Example C01_bits_applies : (0 < 32 < 256)%nat /\ 2 ^ Z.of_nat 32 < goldilocks_p / 2 /\ bits_of 5 3 = [1; 0; 1].
Proof. unfold goldilocks_p. repeat split; try (vm_compute; congruence); lia. Qed.

(** C02 is false: with the default chunk size 12 and the default width 64 on
    BN254, the value -1 is accepted as a 64-bit number; so is -1 as an 18-bit
    remainder on Goldilocks. *)
Theorem C02_range_check_all_widths_refuted :
  ~ (forall p c F x n, prime p -> (0 < c)%nat -> (0 < n <= 128)%nat -> 2 ^ Z.of_nat (rounded c n) <= p ->
       0 <= x < p -> accepts p (table_rows c F) (range_check p c x n) tt -> x < 2 ^ Z.of_nat n).
Proof.
  intros H.
  assert (A : accepts bn254_r (table_rows 12 (fun _ => [])) (range_check bn254_r 12 (enc bn254_r (-1)) 64) tt).
  { apply rc_slack.
    - exact bn254_prime.
    - lia.
    - split; [lia|intros E; discriminate].
    - vm_compute; congruence.
    - vm_compute; split; congruence. }
  apply H in A.
  - vm_compute in A. discriminate.
  - exact bn254_prime.
  - lia.
  - lia.
  - vm_compute; congruence.
  - vm_compute; split; congruence.
Qed.
Print Assumptions C02_range_check_all_widths_refuted.

Theorem C02_goldilocks_18_bit_remainder_refuted :
  accepts goldilocks_p (table_rows 12 (fun _ => []))
    (range_check goldilocks_p 12 (enc goldilocks_p (-1)) 18) tt /\
  ~ enc goldilocks_p (-1) < 2 ^ 18.
Proof.
  split; [|vm_compute; congruence].
  apply rc_slack.
  - exact goldilocks_prime.
  - lia.
  - split; [lia|intros E; discriminate].
  - vm_compute; congruence.
  - vm_compute; split; congruence.
Qed.
Print Assumptions C02_goldilocks_18_bit_remainder_refuted.

(** What is true for every width: the accepted set is exactly the residues of
    the integers from [2^n - 2^n'] to [2^n - 1], where n' is n rounded up to a
    multiple of the chunk size.  Only the upper bound is enforced. *)
Theorem C02_range_check_accepted_set_partial p c F x n :
  0 < p -> (0 < c)%nat -> (0 < n <= 128)%nat -> (n = 128 -> n <= c \/ n mod c = 0)%nat ->
  2 ^ Z.of_nat (rounded c n) <= p -> 0 <= x < p ->
  accepts p (table_rows c F) (range_check p c x n) tt <->
  exists z, 2 ^ Z.of_nat n - 2 ^ Z.of_nat (rounded c n) <= z < 2 ^ Z.of_nat n /\ x = z mod p.
Proof. intros Hp Hc Hn Hw Hr Hx. apply range_check_interval; auto. split; auto. Qed.
Print Assumptions C02_range_check_accepted_set_partial.

(** [rounded c n] is what the comment says. *)
Theorem C02_rounded_meaning c n : (0 < c)%nat ->
  (n <= rounded c n)%nat /\ (rounded c n < n + c)%nat /\ (rounded c n mod c = 0)%nat.
Proof.
  intros Hc. split; [apply rounded_ge|]. split.
  - unfold rounded, range_shift. destruct (Nat.eqb_spec (n mod c) 0); [lia|].
    assert (n mod c < c)%nat by (apply Nat.mod_upper_bound; lia). lia.
  - destruct (rounded_mult c n Hc) as (k & ->). apply Nat.mod_mul. lia.
Qed.
Print Assumptions C02_rounded_meaning.

Example C02_applies : rounded 12 64 = 72%nat /\ rounded 12 18 = 24%nat /\ rounded 12 31 = 36%nat /\
  2 ^ Z.of_nat (rounded 12 64) <= bn254_r /\ 2 ^ Z.of_nat (rounded 12 31) <= goldilocks_p.
Proof. repeat split; vm_compute; congruence. Qed.

(** C03.  Witness generation satisfies the range check of every in-range
    value, for every width. *)
Theorem C03_range_check_complete p c F x n :
  prime p -> (0 < c)%nat -> (0 < n <= 128)%nat -> (n = 128 -> n <= c \/ n mod c = 0)%nat ->
  2 ^ Z.of_nat (rounded c n) <= p -> 0 <= x < 2 ^ Z.of_nat n ->
  run honest_hint (table_rowsb c F) (range_check p c (enc p x) n) = Some tt.
Proof. intros Hp Hc Hn Hw Hr Hx. apply run_range_check; auto. split; auto. Qed.
Print Assumptions C03_range_check_complete.

Theorem C03_bit_range_check_complete p c F x n :
  prime p -> (0 < n < 256)%nat -> 2 ^ Z.of_nat n < p / 2 -> 0 <= x < 2 ^ Z.of_nat n ->
  run honest_hint (table_rowsb c F) (range_check_pow2_unsigned p x n) = Some (bits_of x n).
Proof. exact (fun Hp Hn Hs Hx => bit_range_run p Hp c F x n Hn Hs Hx). Qed.
Print Assumptions C03_bit_range_check_complete.

Example C03_applies : prime bn254_r /\ (0 < 64 <= 128)%nat /\ 2 ^ Z.of_nat (rounded 12 64) <= bn254_r /\
  0 <= 2 ^ 64 - 1 < 2 ^ Z.of_nat 64.
Proof. split; [exact bn254_prime|]. repeat split; try lia; vm_compute; congruence. Qed.

(** The widths the API refuses or that overflow: no assignment is accepted. *)
Theorem C03_width_limits p c F x n : (n = 0 \/ 128 < n)%nat ->
  ~ accepts p (table_rows c F) (range_check p c x n) tt.
Proof.
  intros [->|H]; [cbn; auto|]. unfold range_check. destruct (n =? 0)%nat; [cbn; auto|].
  destruct (Nat.ltb_spec 128 n); [cbn; auto|lia].
Qed.
Print Assumptions C03_width_limits.
