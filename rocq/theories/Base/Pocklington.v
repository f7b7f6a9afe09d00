(** Primality of the moduli of the proof configurations, by Pocklington's
    criterion: used to instantiate the theorems at the fields the code uses. *)
From Coq Require Import ZArith Znumtheory Zpow_facts List Lia Permutation Bool.
From Verif Require Import Spec.Numbers.
Import ListNotations.
Local Open Scope Z_scope.

Lemma prime_dec_div n : 1 < n -> exists r, prime r /\ (r | n).
Proof.
  intros Hn. assert (H : forall k, 0 <= k -> forall n, 1 < n <= k -> exists r, prime r /\ (r | n)).
  { intros k Hk. pattern k. apply natlike_ind; auto.
    - intros; lia.
    - clear k Hk. intros k Hk IH m Hm. destruct (prime_dec m) as [P|NP].
      + exists m. split; auto. apply Z.divide_refl.
      + destruct (not_prime_divide m) as (d & Hd & Hdiv); [lia|auto|].
        destruct (IH d) as (r & Pr & Hr); [lia|]. exists r. split; auto.
        apply Z.divide_trans with d; auto. }
  apply (H n); lia.
Qed.

(** A composite number has a prime divisor not above its square root. *)
Lemma small_prime_divisor n : 1 < n -> ~ prime n -> exists r, prime r /\ (r | n) /\ r * r <= n.
Proof.
  intros Hn NP. destruct (not_prime_divide n) as (d & Hd & e & He); auto.
  assert (1 < e) by nia.
  destruct (Z_le_gt_dec d e) as [L|L].
  - destruct (prime_dec_div d) as (r & Pr & Hr); [lia|]. exists r. split; auto.
    assert (r <= d) by (apply Z.divide_pos_le; auto; lia). pose proof (prime_ge_2 _ Pr).
    split; [apply Z.divide_trans with d; auto; exists e; lia | nia].
  - destruct (prime_dec_div e) as (r & Pr & Hr); [lia|]. exists r. split; auto.
    assert (r <= e) by (apply Z.divide_pos_le; auto; lia). pose proof (prime_ge_2 _ Pr).
    split; [apply Z.divide_trans with e; auto; exists d; lia | nia].
Qed.

(** Trial division. *)
Fixpoint no_div (fuel : nat) (d n : Z) : bool :=
  match fuel with
  | O => false
  | S f => if n <? d * d then true else if n mod d =? 0 then false else no_div f (d + 1) n
  end.

Lemma no_div_spec fuel d n : 1 < d -> no_div fuel d n = true ->
  forall r, d <= r -> r * r <= n -> ~ (r | n).
Proof.
  revert d. induction fuel as [|f IH]; intros d Hd E r Hr Hrr; [discriminate|].
  cbn in E. destruct (Z.ltb_spec n (d * d)); [nia|].
  destruct (Z.eqb_spec (n mod d) 0); [discriminate|].
  destruct (Z.eq_dec r d) as [->|].
  - intros D. apply Z.mod_divide in D; lia.
  - apply (IH (d + 1)); auto; lia.
Qed.

Lemma trial_prime fuel n : 1 < n -> no_div fuel 2 n = true -> prime n.
Proof.
  intros Hn E. destruct (prime_dec n) as [P|NP]; auto. exfalso.
  destruct (small_prime_divisor n Hn NP) as (r & Pr & Hd & Hr).
  apply (no_div_spec fuel 2 n ltac:(lia) E r); auto. apply prime_ge_2; auto.
Qed.

(** ** Fermat's little theorem *)
Fixpoint zprod (l : list Z) : Z := match l with [] => 1 | x :: r => x * zprod r end.

Lemma zprod_perm l l' : Permutation l l' -> zprod l = zprod l'.
Proof. induction 1; cbn; lia. Qed.

Section Fermat.
Variable r : Z.
Hypothesis Pr : prime r.
Variable a : Z.
Hypothesis Ha : a mod r <> 0.

Let nz : list Z := map Z.of_nat (seq 1 (Z.to_nat (r - 1))).

Lemma in_nz x : In x nz <-> 1 <= x < r.
Proof.
  pose proof (prime_ge_2 _ Pr). unfold nz. rewrite in_map_iff. split.
  - intros (k & <- & Hk). apply in_seq in Hk. lia.
  - intros Hx. exists (Z.to_nat x). split; [lia|]. apply in_seq. lia.
Qed.

Lemma nz_nodup : NoDup nz.
Proof. apply FinFun.Injective_map_NoDup; [intros x y; lia | apply seq_NoDup]. Qed.

Lemma mul_inj x y : (a * x) mod r = (a * y) mod r -> 1 <= x < r -> 1 <= y < r -> x = y.
Proof.
  intros E Hx Hy. pose proof (prime_ge_2 _ Pr).
  assert (D : (r | a * (x - y))).
  { apply Z.mod_divide; [lia|]. rewrite Z.mul_sub_distr_l, Zminus_mod, E, Z.sub_diag.
    apply Zmod_0_l. }
  apply prime_mult in D; auto. destruct D as [D|D].
  - exfalso. apply Ha. apply Z.mod_divide; auto; lia.
  - destruct D as (k & Hk). assert (k = 0) by nia. lia.
Qed.

Lemma perm_mul : Permutation (map (fun x => (a * x) mod r) nz) nz.
Proof.
  pose proof (prime_ge_2 _ Pr).
  apply NoDup_Permutation_bis.
  - assert (G : forall l, NoDup l -> (forall x, In x l -> 1 <= x < r) ->
              NoDup (map (fun x => (a * x) mod r) l)).
    { induction 1 as [|x l Hx Hl IH]; intros Hin; cbn; constructor.
      - rewrite in_map_iff. intros (y & E & Hy). apply Hx.
        apply mul_inj in E; [subst; auto | apply Hin; right; auto | apply Hin; left; auto].
      - apply IH. intros; apply Hin; right; auto. }
    apply G; [apply nz_nodup | apply in_nz].
  - rewrite map_length. auto.
  - intros y Hy. apply in_map_iff in Hy as (x & <- & Hx). apply in_nz in Hx. apply in_nz.
    pose proof (Z.mod_pos_bound (a * x) r ltac:(lia)).
    assert ((a * x) mod r <> 0); [|lia].
    intros E. apply Z.mod_divide in E; [|lia]. apply prime_mult in E; auto.
    destruct E as [E|E].
    + apply Ha, Z.mod_divide; auto; lia.
    + apply Z.divide_pos_le in E; lia.
Qed.

Lemma zprod_map_mod l :
  zprod (map (fun x => (a * x) mod r) l) mod r = (a ^ Z.of_nat (length l) * zprod l) mod r.
Proof.
  induction l as [|x l IH]; [reflexivity|].
  cbn [map zprod length]. rewrite Nat2Z.inj_succ, Z.pow_succ_r by lia.
  rewrite Zmult_mod_idemp_l, Zmult_mod, IH, <- Zmult_mod. f_equal. ring.
Qed.

Lemma zprod_coprime l : (forall x, In x l -> 1 <= x < r) -> ~ (r | zprod l).
Proof.
  induction l as [|x l IH]; intros Hin; cbn.
  - intros D. apply Z.divide_pos_le in D; [pose proof (prime_ge_2 _ Pr)|]; lia.
  - intros D. apply prime_mult in D; auto. destruct D as [D|D].
    + assert (1 <= x < r) by (apply Hin; left; auto). apply Z.divide_pos_le in D; lia.
    + apply IH; auto. intros; apply Hin; right; auto.
Qed.

Theorem fermat : a ^ (r - 1) mod r = 1.
Proof.
  pose proof (prime_ge_2 _ Pr).
  assert (E : (a ^ (r - 1) * zprod nz) mod r = (1 * zprod nz) mod r).
  { replace (r - 1) with (Z.of_nat (length nz)).
    - rewrite <- zprod_map_mod, (zprod_perm _ _ perm_mul). f_equal. ring.
    - unfold nz. rewrite map_length, seq_length. lia. }
  assert (D : (r | (a ^ (r - 1) - 1) * zprod nz)).
  { apply Z.mod_divide; [lia|]. rewrite Z.mul_sub_distr_r, Zminus_mod, E, Z.sub_diag. apply Zmod_0_l. }
  apply prime_mult in D; auto. destruct D as [D|D].
  - destruct D as (k & Hk). replace (a ^ (r - 1)) with (1 + k * r) by lia.
    rewrite Z_mod_plus_full. apply Z.mod_small. lia.
  - exfalso. apply (zprod_coprime nz); auto. intros x Hx. apply in_nz; auto.
Qed.

End Fermat.

(** ** Pocklington *)
Lemma pow_gcd_one r b m n : prime r -> 0 <= m -> 0 <= n -> b mod r <> 0 ->
  b ^ m mod r = 1 -> b ^ n mod r = 1 -> b ^ (Z.gcd m n) mod r = 1.
Proof.
  intros Pr Hm Hn Hb. pose proof (prime_ge_2 _ Pr) as R2.
  assert (G : forall k, 0 <= k -> forall m n, 0 <= m -> 0 <= n -> m + n <= k ->
     b ^ m mod r = 1 -> b ^ n mod r = 1 -> b ^ Z.gcd m n mod r = 1).
  { intros k Hk. pattern k. apply natlike_ind; auto; clear k Hk m n Hm Hn.
    - intros m n Hm Hn Hle E1 E2. assert (m = 0) by lia. assert (n = 0) by lia. subst.
      exact E1.
    - intros k Hk IH m n Hm Hn Hle E1 E2.
      assert (Sub : forall u v, 0 <= v <= u -> b ^ u mod r = 1 -> b ^ v mod r = 1 -> b ^ (u - v) mod r = 1).
      { intros u v Huv Eu Ev. replace u with ((u - v) + v) in Eu by ring.
        rewrite Z.pow_add_r, Zmult_mod, Ev, Z.mul_1_r, Zmod_mod in Eu by lia. exact Eu. }
      destruct (Z.eq_dec m 0) as [->|]; [rewrite Z.gcd_0_l, Z.abs_eq by auto; auto|].
      destruct (Z.eq_dec n 0) as [->|]; [rewrite Z.gcd_0_r, Z.abs_eq by auto; auto|].
      destruct (Z_le_gt_dec m n) as [L|L].
      + rewrite <- Z.gcd_sub_diag_r. apply IH; auto; try lia; apply Sub; auto; lia.
      + rewrite Z.gcd_comm, <- Z.gcd_sub_diag_r. apply IH; auto; try lia; apply Sub; auto; lia. }
  intros. apply (G (m + n)); auto; lia.
Qed.

Lemma order_prime_power r q b n (e : nat) : prime r -> prime q -> b mod r <> 0 -> 0 <= n ->
  (0 < e)%nat -> b ^ (q ^ Z.of_nat e) mod r = 1 -> b ^ (q ^ Z.of_nat (e - 1)) mod r <> 1 ->
  b ^ n mod r = 1 -> forall j, (j <= e)%nat -> (q ^ Z.of_nat j | n).
Proof.
  intros Pr Pq Hb Hn He E1 E2 E3. pose proof (prime_ge_2 _ Pq) as Q2.
  pose proof (prime_ge_2 _ Pr) as R2.
  induction j as [|j IH]; intros Hj.
  - apply Z.divide_1_l.
  - destruct (IH ltac:(lia)) as (n' & Hn').
    assert (Qj : 0 < q ^ Z.of_nat j) by (apply Z.pow_pos_nonneg; lia).
    destruct (Zdivide_dec q n') as [(k & Hk)|ND].
    + exists k. rewrite Nat2Z.inj_succ, Z.pow_succ_r by lia. subst. ring.
    + exfalso. apply E2.
      assert (G : Z.gcd (q ^ Z.of_nat e) n = q ^ Z.of_nat j).
      { replace (q ^ Z.of_nat e) with (q ^ Z.of_nat (e - j) * q ^ Z.of_nat j)
          by (rewrite <- Z.pow_add_r by lia; f_equal; lia).
        rewrite Hn', Z.gcd_mul_mono_r_nonneg by lia.
        assert (RP : rel_prime (q ^ Z.of_nat (e - j)) n').
        { apply rel_prime_sym, rel_prime_Zpower_r; [lia|]. apply rel_prime_sym.
          apply prime_rel_prime; auto. }
        apply Zgcd_1_rel_prime in RP. rewrite RP. ring. }
      pose proof (pow_gcd_one r b (q ^ Z.of_nat e) n Pr ltac:(apply Z.pow_nonneg; lia) Hn Hb E1 E3) as E4.
      rewrite G in E4.
      replace (q ^ Z.of_nat (e - 1)) with (q ^ Z.of_nat j * q ^ Z.of_nat (e - 1 - j))
        by (rewrite <- Z.pow_add_r by lia; f_equal; lia).
      rewrite Z.pow_mul_r by (try apply Z.pow_nonneg; lia).
      rewrite Zpower_mod by lia. rewrite E4, Z.pow_1_l by (apply Z.pow_nonneg; lia).
      apply Z.mod_small. lia.
Qed.

(** One prime power of the certificate. *)
Lemma pocklington_step N q (e : nat) m a v r :
  1 < N -> prime q -> (0 < e)%nat -> 0 <= m -> N - 1 = q ^ Z.of_nat e * m ->
  a ^ (N - 1) mod N = 1 -> a ^ (q ^ Z.of_nat (e - 1) * m) mod N = v -> Z.gcd (v - 1) N = 1 ->
  prime r -> (r | N) -> (q ^ Z.of_nat e | r - 1).
Proof.
  intros HN Pq He Hm EN E1 Ev E2 Pr Hr. subst v. pose proof (prime_ge_2 _ Pr) as R2.
  pose proof (prime_ge_2 _ Pq) as Q2.
  assert (modN : forall x, (x mod N) mod r = x mod r).
  { intros x. rewrite <- Zmod_div_mod; auto; lia. }
  assert (Er : a ^ (N - 1) mod r = 1).
  { rewrite <- modN, E1. apply Z.mod_small; lia. }
  assert (Har : a mod r <> 0).
  { intros E. rewrite Zpower_mod, E, Z.pow_0_l in Er by lia. rewrite Zmod_0_l in Er. lia. }
  set (b := a ^ m).
  assert (Hpow : forall u, 0 <= u -> b ^ u = a ^ (u * m)).
  { intros u Hu. unfold b. rewrite <- Z.pow_mul_r by lia. f_equal. ring. }
  assert (Qp : forall i, 0 <= q ^ Z.of_nat i) by (intros; apply Z.pow_nonneg; lia).
  apply (order_prime_power r q b (r - 1) e); auto; try lia.
  - unfold b. intros E. apply Z.mod_divide in E; [|lia].
    assert (ND : ~ (r | a)) by (intros D; apply Har, Z.mod_divide; auto; lia).
    apply prime_rel_prime in ND; auto.
    apply (rel_prime_Zpower_r m r a Hm) in ND. apply Zgcd_1_rel_prime in ND.
    assert (D1 : (r | 1)) by (rewrite <- ND; apply Z.gcd_greatest; auto; apply Z.divide_refl).
    apply Z.divide_pos_le in D1; lia.
  - rewrite Hpow, <- EN by auto. auto.
  - rewrite Hpow by auto. intros E.
    assert (D : (r | a ^ (q ^ Z.of_nat (e - 1) * m) mod N - 1)).
    { apply Z.mod_divide; [lia|]. rewrite Zminus_mod, modN, E, (Z.mod_small 1 r), Z.sub_diag by lia.
      apply Zmod_0_l. }
    assert (D1 : (r | 1)) by (rewrite <- E2; apply Z.gcd_greatest; auto).
    apply Z.divide_pos_le in D1; lia.
  - unfold b. rewrite <- Z.pow_mul_r, Z.mul_comm, Z.pow_mul_r by lia.
    rewrite Zpower_mod, fermat, Z.pow_1_l by (auto; lia). apply Z.mod_small; lia.
Qed.

(** Conclusion: if every prime divisor [r] of [N] has [F | r - 1] and F^2 >= N
    then [N] is prime. *)
Lemma pocklington N Fc : 1 < N -> 0 < Fc -> N <= Fc * Fc ->
  (forall r, prime r -> (r | N) -> (Fc | r - 1)) -> prime N.
Proof.
  intros HN HF Hsq H. destruct (prime_dec N) as [P|NP]; auto. exfalso.
  destruct (small_prime_divisor N HN NP) as (r & Pr & Hd & Hr).
  specialize (H r Pr Hd). pose proof (prime_ge_2 _ Pr).
  apply Z.divide_pos_le in H; [nia | lia].
Qed.

Lemma divide_mul_coprime a b n : rel_prime a b -> (a | n) -> (b | n) -> (a * b | n).
Proof.
  intros RP (k & Hk) Hb. apply rel_prime_sym in RP. subst n.
  assert (D : (b | k)). { apply (Gauss b a k); [rewrite Z.mul_comm; auto | auto]. }
  destruct D as (j & ->). exists j. ring.
Qed.

(** Sharing modular powers between the steps of a certificate. *)
Lemma pow_start N a x u : 1 < N -> 0 <= x -> Zpow_mod a x N = u -> a ^ x mod N = u.
Proof. intros HN Hx E. rewrite Zpow_mod_correct in E by lia. exact E. Qed.

Lemma pow_chain N a x y xy u w : 1 < N -> 0 <= x -> 0 <= y -> a ^ x mod N = u -> Zpow_mod u y N = w ->
  xy = x * y -> a ^ xy mod N = w.
Proof.
  intros HN Hx Hy E1 E2 ->. rewrite Zpow_mod_correct in E2 by lia.
  rewrite Z.pow_mul_r, Zpower_mod, E1 by lia. exact E2.
Qed.

Ltac vmr := vm_compute; reflexivity.
Ltac vmc := vm_compute; congruence.

Theorem goldilocks_prime : prime goldilocks_p.
Proof.
  apply (pocklington goldilocks_p (2 ^ Z.of_nat 32)); [reflexivity | reflexivity | vmc |].
  intros r Pr Hr.
  apply (pocklington_step goldilocks_p 2 32 (2 ^ 32 - 1) 7 (goldilocks_p - 1) r);
    [reflexivity | exact prime_2 | lia | vmc | vmr | | | vmr | assumption | assumption];
    apply pow_start; [reflexivity | vmc | vmr | reflexivity | vmc | vmr].
Qed.

Lemma prime_853 : prime 853.
Proof. apply (trial_prime 40); [lia | vmr]. Qed.
Lemma prime_1637 : prime 1637.
Proof. apply (trial_prime 50); [lia | vmr]. Qed.

Lemma prime_639533339 : prime 639533339.
Proof.
  apply (pocklington _ (853 ^ Z.of_nat 1 * 1637 ^ Z.of_nat 1)); [reflexivity | reflexivity | vmc |].
  intros r Pr Hr.
  apply divide_mul_coprime; [apply Zgcd_1_rel_prime; vmr | |].
  { apply (pocklington_step 639533339 853 1 (639533338 / 853) 2 256057581 r);
    [reflexivity | exact prime_853 | lia | vmc | vmr | | | vmr | assumption | assumption];
    apply pow_start; [reflexivity | vmc | vmr | reflexivity | vmc | vmr]. }
  apply (pocklington_step 639533339 1637 1 (639533338 / 1637) 2 248876995 r);
    [reflexivity | exact prime_1637 | lia | vmc | vmr | | | vmr | assumption | assumption];
    apply pow_start; [reflexivity | vmc | vmr | reflexivity | vmc | vmr].
Qed.

Lemma prime_65865678001877903 : prime 65865678001877903.
Proof.
  apply (pocklington _ (639533339 ^ Z.of_nat 1)); [reflexivity | reflexivity | vmc |].
  intros r Pr Hr.
  apply (pocklington_step 65865678001877903 639533339 1 (65865678001877902 / 639533339) 2 8595199928015311 r);
    [reflexivity | exact prime_639533339 | lia | vmc | vmr | | | vmr | assumption | assumption];
    apply pow_start; [reflexivity | vmc | vmr | reflexivity | vmc | vmr].
Qed.

Lemma prime_P93 : prime 13818364434197438864469338081.
Proof.
  apply (pocklington _ (65865678001877903 ^ Z.of_nat 1)); [reflexivity | reflexivity | vmc |].
  intros r Pr Hr.
  apply (pocklington_step 13818364434197438864469338081 65865678001877903 1 (13818364434197438864469338080 / 65865678001877903) 2 7935281130018080704632618576 r);
    [reflexivity | exact prime_65865678001877903 | lia | vmc | vmr | | | vmr | assumption | assumption];
    apply pow_start; [reflexivity | vmc | vmr | reflexivity | vmc | vmr].
Qed.

Lemma prime_13 : prime 13.
Proof. apply (trial_prime 10); [lia | vmr]. Qed.

(** bn254_r - 1 = 2^28 * 3^2 * 13 * 13818364434197438864469338081 * 50434592529675492451641016474373659843 *)
Lemma bn_c : 5 ^ 50434592529675492451641016474373659843 mod bn254_r =
  16666960978560578127657017550410035710339360768717404429481715452174955834793.
Proof. apply pow_start; [reflexivity | vmc | vmr]. Qed.

Lemma bn_d : 5 ^ 696923579665307663134224577377280462009414024345896257539660381283 mod bn254_r =
  10706486370804400260043527560010728676164031926850274569199492254864142415818.
Proof. eapply (pow_chain bn254_r 5 _ 13818364434197438864469338081); [reflexivity | | | exact bn_c | vmr | vmr]; vmc. Qed.

Lemma bn_one : 5 ^ (bn254_r - 1) mod bn254_r = 1.
Proof. eapply (pow_chain bn254_r 5 _ 31406948352); [reflexivity | | | exact bn_d | vmr | vmr]; vmc. Qed.

Theorem bn254_prime : prime bn254_r.
Proof.
  apply (pocklington _ (2 ^ Z.of_nat 28 * (3 ^ Z.of_nat 2 * (13 ^ Z.of_nat 1 * 13818364434197438864469338081 ^ Z.of_nat 1))));
    [reflexivity | reflexivity | vmc |].
  intros r Pr Hr.
  apply divide_mul_coprime; [apply Zgcd_1_rel_prime; vmr | |].
  { apply (pocklington_step bn254_r 2 28 ((bn254_r - 1) / 268435456) 5
      21888242871839275222246405745257275088548364400416034343698204186575808495616 r);
    [reflexivity | exact prime_2 | lia | vmc | vmr | exact bn_one | | vmr | assumption | assumption].
    eapply (pow_chain bn254_r 5 _ 15703474176); [reflexivity | | | exact bn_d | vmr | vmr]; vmc. }
  apply divide_mul_coprime; [apply Zgcd_1_rel_prime; vmr | |].
  { apply (pocklington_step bn254_r 3 2 ((bn254_r - 1) / 9) 5
      4407920970296243842393367215006156084916469457145843978461 r);
    [reflexivity | exact prime_3 | lia | vmc | vmr | exact bn_one | | vmr | assumption | assumption].
    eapply (pow_chain bn254_r 5 _ 10468982784); [reflexivity | | | exact bn_d | vmr | vmr]; vmc. }
  apply divide_mul_coprime; [apply Zgcd_1_rel_prime; vmr | |].
  { apply (pocklington_step bn254_r 13 1 ((bn254_r - 1) / 13) 5
      20846111736645777009767703653665533493788639406277865704073555848150445038125 r);
    [reflexivity | exact prime_13 | lia | vmc | vmr | exact bn_one | | vmr | assumption | assumption].
    eapply (pow_chain bn254_r 5 _ 2415919104); [reflexivity | | | exact bn_d | vmr | vmr]; vmc. }
  apply (pocklington_step bn254_r 13818364434197438864469338081 1 ((bn254_r - 1) / 13818364434197438864469338081) 5
      7740382856488830440021062471495669005558519249383073335662966997885018076746 r);
    [reflexivity | exact prime_P93 | lia | vmc | vmr | exact bn_one | | vmr | assumption | assumption].
    eapply (pow_chain bn254_r 5 _ 31406948352); [reflexivity | | | exact bn_c | vmr | vmr]; vmc.
Qed.
