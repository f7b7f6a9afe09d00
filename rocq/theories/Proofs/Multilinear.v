From Coq Require Import List Arith Lia Ring Field Bool.
From Verif Require Import Base.Field Base.Array Spec.Multilinear.
Import ListNotations.

Section Facts.
Variable K : field.
Add Field Kf : (fth K).
Local Open Scope fld_scope.
Implicit Types (f g c : nat -> K) (r s : list K).

(** ** Sums *)
Lemma sumn_0 g : sumn 0 g = 0.
Proof. reflexivity. Qed.

Lemma sumn_S n g : sumn (S n) g = sumn n g + g n.
Proof. unfold sumn. rewrite seq_S, map_app, fsum_app. cbn. ring. Qed.

Lemma sumn_1 g : sumn 1 g = g 0%nat.
Proof. rewrite sumn_S, sumn_0. ring. Qed.

Lemma sumn_ext n f g : (forall i, (i < n)%nat -> f i = g i) -> sumn n f = sumn n g.
Proof. intros H. unfold sumn. apply fsum_ext. intros i Hi. apply H. apply in_seq in Hi. lia. Qed.

Lemma sumn_plus n f g : sumn n (fun i => f i + g i) = sumn n f + sumn n g.
Proof. apply fsum_map_add. Qed.

Lemma sumn_scale n (a : K) f : sumn n (fun i => a * f i) = a * sumn n f.
Proof. apply fsum_map_scale. Qed.

Lemma sumn_scale_r n (a : K) f : sumn n (fun i => f i * a) = sumn n f * a.
Proof. rewrite (fmul_comm K _ a), <- sumn_scale. apply sumn_ext. intros. ring. Qed.

Lemma sumn_zero n g : (forall i, (i < n)%nat -> g i = 0) -> sumn n g = 0.
Proof. intros H. apply fsum_map_0. intros i Hi. apply H. apply in_seq in Hi. lia. Qed.

Lemma sumn_minus n f g : sumn n (fun i => f i - g i) = sumn n f - sumn n g.
Proof.
  induction n; [rewrite !sumn_0; ring|]. rewrite !sumn_S, IHn. ring.
Qed.

Lemma sumn_app n m g : sumn (n + m) g = sumn n g + sumn m (fun i => g (n + i)%nat).
Proof.
  induction m as [|m IH]; [rewrite Nat.add_0_r, sumn_0; ring|].
  rewrite Nat.add_succ_r, !sumn_S, IH. ring.
Qed.

Lemma sumn_double n g : sumn (2 * n) g = sumn n (fun i => g (2 * i)%nat) + sumn n (fun i => g (2 * i + 1)%nat).
Proof.
  induction n as [|n IH]; [cbn; ring|].
  replace (2 * S n)%nat with (S (S (2 * n))) by lia.
  rewrite !sumn_S, IH. replace (S (2 * n)) with (2 * n + 1)%nat by lia. ring.
Qed.

Lemma sumn_swap n m (f : nat -> nat -> K) :
  sumn n (fun i => sumn m (fun j => f i j)) = sumn m (fun j => sumn n (fun i => f i j)).
Proof. apply fsum_swap. Qed.

Lemma sumn_single n k g : (k < n)%nat -> (forall i, (i < n)%nat -> i <> k -> g i = 0) -> sumn n g = g k.
Proof.
  intros Hk H. replace n with (k + (1 + (n - k - 1)))%nat by lia.
  rewrite sumn_app, sumn_app, sumn_1, Nat.add_0_r.
  rewrite (sumn_zero k), (sumn_zero (n - k - 1)).
  - ring.
  - intros i Hi. apply H; lia.
  - intros i Hi. apply H; lia.
Qed.

Lemma sumn_fold n g a : fold_left fadd (map g (seq 0 n)) a = a + sumn n g.
Proof.
  unfold sumn. generalize (seq 0 n). intros l. revert a.
  induction l as [|i l IH]; intros a; cbn; [ring|]. rewrite IH. ring.
Qed.

Lemma fold_fadd (l : list K) a : fold_left fadd l a = a + fsum l.
Proof. revert a. induction l as [|x l IH]; intros a; cbn; [ring|]. rewrite IH. ring. Qed.

(** ** Products *)
Lemma fprod_app (l m : list K) : fprod (l ++ m) = fprod l * fprod m.
Proof. induction l as [|a l IH]; cbn; [ring|]. rewrite IH. ring. Qed.

Lemma fprod_ext {A} (f g : A -> K) l : (forall x, In x l -> f x = g x) -> fprod (map f l) = fprod (map g l).
Proof.
  induction l as [|a l IH]; cbn; intros H; auto. rewrite (H a), IH by auto. reflexivity.
Qed.

(** ** Bits *)
Lemma testbit_S i j : Nat.testbit i (S j) = Nat.testbit (i / 2) j.
Proof. rewrite <- Nat.div2_div. reflexivity. Qed.

Lemma testbit_0 i : Nat.testbit i 0 = Nat.odd i.
Proof. apply Nat.bit0_odd. Qed.

(** ** The equality polynomial *)
Lemma eq_point_nil i : eq_point (K:=K) [] i = 1.
Proof. reflexivity. Qed.

Lemma eq_point_cons a r i : eq_point (a :: r) i = (if Nat.odd i then a else 1 - a) * eq_point r (i / 2).
Proof.
  unfold eq_point. cbn [length seq map fprod]. rewrite testbit_0. cbn [nth].
  f_equal. rewrite <- seq_shift, map_map. apply fprod_ext. intros j _. cbn [nth]. now rewrite testbit_S.
Qed.

Lemma eq_point_even a r i : eq_point (a :: r) (2 * i) = (1 - a) * eq_point r i.
Proof.
  rewrite eq_point_cons, Nat.odd_mul. cbn [Nat.odd andb].
  replace (2 * i / 2)%nat with i by (rewrite Nat.mul_comm, Nat.div_mul; lia). reflexivity.
Qed.

Lemma eq_point_odd a r i : eq_point (a :: r) (2 * i + 1) = a * eq_point r i.
Proof.
  rewrite eq_point_cons, Nat.odd_add, Nat.odd_mul. cbn [Nat.odd andb xorb].
  replace ((2 * i + 1) / 2)%nat with i; [reflexivity|].
  rewrite Nat.mul_comm, Nat.div_add_l by lia. cbn. lia.
Qed.

Lemma eq_point_snoc r a i :
  eq_point (r ++ [a]) i = eq_point r i * (if Nat.testbit i (length r) then a else 1 - a).
Proof.
  unfold eq_point. rewrite app_length. cbn [length]. rewrite Nat.add_1_r, seq_S, map_app, fprod_app. cbn.
  rewrite app_nth2, Nat.sub_diag by lia. cbn. rewrite fmul_1_r. f_equal.
  apply fprod_ext. intros j Hj. apply in_seq in Hj. rewrite app_nth1 by lia. reflexivity.
Qed.

Lemma eq_point_app r s i :
  eq_point (r ++ s) i = eq_point r i * eq_point s (i / 2 ^ length r).
Proof.
  revert i. induction r as [|a r IH]; intros i; cbn [app length].
  - rewrite eq_point_nil. cbn [Nat.pow]. rewrite Nat.div_1_r. ring.
  - rewrite !eq_point_cons, IH. rewrite Nat.pow_succ_r', Nat.div_div by (try apply Nat.pow_nonzero; lia). ring.
Qed.

Lemma pow2_nz n : (2 ^ n <> 0)%nat.
Proof. apply Nat.pow_nonzero. lia. Qed.

Lemma eq_point_mod r i : eq_point r (i mod 2 ^ length r) = eq_point r i.
Proof.
  unfold eq_point. apply fprod_ext. intros j Hj. apply in_seq in Hj.
  rewrite Nat.mod_pow2_bits_low by lia. reflexivity.
Qed.

Lemma eq_point_low r a i : (i < 2 ^ length r)%nat -> eq_point (r ++ [a]) i = eq_point r i * (1 - a).
Proof.
  intros H. rewrite eq_point_snoc. rewrite <- (Nat.mod_small i (2 ^ length r)) at 2 by auto.
  rewrite Nat.mod_pow2_bits_high by lia. reflexivity.
Qed.

Lemma eq_point_high r a i : (i < 2 ^ length r)%nat -> eq_point (r ++ [a]) (2 ^ length r + i) = eq_point r i * a.
Proof.
  intros H. rewrite eq_point_app. f_equal.
  - rewrite <- eq_point_mod. f_equal. rewrite Nat.add_comm, <- (Nat.mul_1_l (2 ^ length r)) at 1.
    rewrite Nat.mod_add by apply pow2_nz. apply Nat.mod_small. auto.
  - replace ((2 ^ length r + i) / 2 ^ length r)%nat with 1%nat.
    + rewrite eq_point_cons, eq_point_nil. cbn. ring.
    + rewrite <- (Nat.mul_1_l (2 ^ length r)) at 1. rewrite Nat.div_add_l by apply pow2_nz.
      rewrite Nat.div_small by auto. reflexivity.
Qed.

(** On Boolean points the equality polynomial is the indicator. *)
Definition bits_of (n i : nat) : list K := map (fun j => if Nat.testbit i j then 1 else 0) (seq 0 n).

Lemma bits_of_length n i : length (bits_of n i) = n.
Proof. unfold bits_of. now rewrite map_length, seq_length. Qed.

Lemma bits_of_S n i : bits_of (S n) i = (if Nat.odd i then 1 else 0) :: bits_of n (i / 2).
Proof.
  unfold bits_of. cbn [seq map]. rewrite testbit_0. f_equal.
  rewrite <- seq_shift, map_map. apply map_ext. intros j. now rewrite testbit_S.
Qed.

Lemma odd_div2_eq i j : Nat.odd i = Nat.odd j -> (i / 2 = j / 2)%nat -> i = j.
Proof.
  intros H1 H2. rewrite (Nat.div_mod i 2), (Nat.div_mod j 2), H2 by lia. f_equal.
  rewrite <- !Nat.bit0_mod, !Nat.bit0_odd, H1. reflexivity.
Qed.

Lemma eq_point_bits n i j : (i < 2 ^ n)%nat -> (j < 2 ^ n)%nat ->
  eq_point (bits_of n i) j = if (i =? j)%nat then 1 else 0.
Proof.
  revert i j. induction n as [|n IH]; intros i j Hi Hj.
  - cbn in Hi, Hj. replace i with 0%nat by lia. replace j with 0%nat by lia. reflexivity.
  - rewrite bits_of_S, eq_point_cons, IH.
    + destruct (Nat.eqb_spec i j) as [->|N].
      * rewrite Nat.eqb_refl. destruct (Nat.odd j); ring.
      * destruct (Nat.eqb_spec (i / 2) (j / 2)) as [E|N2]; [|ring].
        destruct (Nat.odd i) eqn:Ei, (Nat.odd j) eqn:Ej; try ring.
        -- exfalso. apply N. apply odd_div2_eq; congruence.
        -- exfalso. apply N. apply odd_div2_eq; congruence.
    + apply Nat.div_lt_upper_bound; [lia|]. rewrite Nat.pow_succ_r' in Hi. lia.
    + apply Nat.div_lt_upper_bound; [lia|]. rewrite Nat.pow_succ_r' in Hj. lia.
Qed.

(** ** Multilinear extensions *)
Lemma mle_nil f : mle f [] = f 0%nat.
Proof. unfold mle. cbn [length Nat.pow]. rewrite sumn_1, eq_point_nil. ring. Qed.

Lemma mle_ext f g r : (forall i, (i < 2 ^ length r)%nat -> f i = g i) -> mle f r = mle g r.
Proof. intros H. apply sumn_ext. intros i Hi. now rewrite H. Qed.

Lemma mle_cons f a r :
  mle f (a :: r) = (1 - a) * mle (fun i => f (2 * i)%nat) r + a * mle (fun i => f (2 * i + 1)%nat) r.
Proof.
  unfold mle. cbn [length]. rewrite Nat.pow_succ_r', sumn_double, <- !sumn_scale.
  f_equal; apply sumn_ext; intros i _; rewrite ?eq_point_even, ?eq_point_odd; ring.
Qed.

Lemma mle_snoc f r a :
  mle f (r ++ [a]) = (1 - a) * mle f r + a * mle (fun i => f (2 ^ length r + i)%nat) r.
Proof.
  unfold mle. rewrite app_length. cbn [length]. rewrite Nat.add_1_r, Nat.pow_succ_r'.
  replace (2 * 2 ^ length r)%nat with (2 ^ length r + 2 ^ length r)%nat by lia.
  rewrite sumn_app, <- !sumn_scale. f_equal; apply sumn_ext; intros i Hi.
  - rewrite eq_point_low by auto. ring.
  - rewrite eq_point_high by auto. ring.
Qed.

Lemma mle_plus f g r : mle (fun i => f i + g i) r = mle f r + mle g r.
Proof. unfold mle. rewrite <- sumn_plus. apply sumn_ext. intros. ring. Qed.

Lemma mle_scale (a : K) f r : mle (fun i => a * f i) r = a * mle f r.
Proof. unfold mle. rewrite <- sumn_scale. apply sumn_ext. intros. ring. Qed.

Lemma mle_sumn n (F : nat -> nat -> K) r : mle (fun i => sumn n (fun k => F k i)) r = sumn n (fun k => mle (F k) r).
Proof.
  induction n as [|n IH]; [rewrite sumn_0|].
  - unfold mle. apply sumn_zero. intros. rewrite sumn_0. ring.
  - rewrite sumn_S, <- IH, <- mle_plus. apply mle_ext. intros i _. now rewrite sumn_S.
Qed.

(** Agreement with the table on the cube. *)
Lemma mle_bits n f i : (i < 2 ^ n)%nat -> mle f (bits_of n i) = f i.
Proof.
  intros Hi. unfold mle. rewrite bits_of_length.
  rewrite (sumn_single _ i); auto.
  - rewrite eq_point_bits, Nat.eqb_refl by auto. ring.
  - intros j Hj N. rewrite eq_point_bits by auto. destruct (Nat.eqb_spec i j); [congruence|ring].
Qed.

Lemma mle_app f r s :
  mle f (r ++ s) = mle (fun j => mle (fun i => f (i + 2 ^ length r * j)%nat) r) s.
Proof.
  revert f. induction r as [|a r IH]; intros f; cbn [app length].
  - apply mle_ext. intros j _. rewrite mle_nil. f_equal. cbn. lia.
  - rewrite mle_cons, !IH, <- !mle_scale, <- mle_plus. apply mle_ext. intros j _.
    rewrite mle_cons. f_equal; f_equal; apply mle_ext; intros i _; f_equal;
      rewrite ?Nat.pow_succ_r'; lia.
Qed.

Lemma monomial_cons a r i : monomial (a :: r) i = (if Nat.odd i then a else 1) * monomial r (i / 2).
Proof.
  unfold monomial. cbn [length seq map fprod]. rewrite testbit_0. cbn [nth].
  f_equal. rewrite <- seq_shift, map_map. apply fprod_ext. intros j _. cbn [nth]. now rewrite testbit_S.
Qed.

Lemma from_coeffs_nil f : from_coeffs f [] = f 0%nat.
Proof. unfold from_coeffs. cbn [length Nat.pow]. rewrite sumn_1. unfold monomial. cbn. ring. Qed.

Lemma from_coeffs_ext f g r : (forall i, (i < 2 ^ length r)%nat -> f i = g i) -> from_coeffs f r = from_coeffs g r.
Proof. intros H. apply sumn_ext. intros i Hi. now rewrite H. Qed.

Lemma monomial_snoc r a i :
  monomial (r ++ [a]) i = monomial r i * (if Nat.testbit i (length r) then a else 1).
Proof.
  unfold monomial. rewrite app_length. cbn [length]. rewrite Nat.add_1_r, seq_S, map_app, fprod_app. cbn.
  rewrite app_nth2, Nat.sub_diag by lia. cbn. rewrite fmul_1_r. f_equal.
  apply fprod_ext. intros j Hj. apply in_seq in Hj. rewrite app_nth1 by lia. reflexivity.
Qed.

Lemma monomial_mod r i : monomial r (i mod 2 ^ length r) = monomial r i.
Proof.
  unfold monomial. apply fprod_ext. intros j Hj. apply in_seq in Hj.
  rewrite Nat.mod_pow2_bits_low by lia. reflexivity.
Qed.

Lemma from_coeffs_snoc f r a :
  from_coeffs f (r ++ [a]) = from_coeffs f r + a * from_coeffs (fun i => f (2 ^ length r + i)%nat) r.
Proof.
  unfold from_coeffs. rewrite app_length. cbn [length]. rewrite Nat.add_1_r, Nat.pow_succ_r'.
  replace (2 * 2 ^ length r)%nat with (2 ^ length r + 2 ^ length r)%nat by lia.
  rewrite sumn_app, <- !sumn_scale. f_equal; apply sumn_ext; intros i Hi.
  - rewrite monomial_snoc. rewrite <- (Nat.mod_small i (2 ^ length r)) at 3 by auto.
    rewrite Nat.mod_pow2_bits_high by lia. ring.
  - rewrite monomial_snoc.
    replace (Nat.testbit (2 ^ length r + i) (length r)) with true.
    + rewrite <- (monomial_mod r (2 ^ length r + i)).
      replace ((2 ^ length r + i) mod 2 ^ length r)%nat with i; [ring|].
      rewrite Nat.add_comm, <- (Nat.mul_1_l (2 ^ length r)) at 1.
      rewrite Nat.mod_add by apply pow2_nz. symmetry. apply Nat.mod_small. auto.
    + symmetry. rewrite Nat.testbit_true.
      rewrite <- (Nat.mul_1_l (2 ^ length r)) at 1. rewrite Nat.div_add_l by apply pow2_nz.
      rewrite Nat.div_small by auto. reflexivity.
Qed.

Lemma from_coeffs_minus f g r : from_coeffs (fun i => f i - g i) r = from_coeffs f r - from_coeffs g r.
Proof. unfold from_coeffs. rewrite <- sumn_minus. apply sumn_ext. intros. ring. Qed.

(** ** Univariate *)
Lemma poly_at_nil x : poly_at (K:=K) [] x = 0.
Proof. reflexivity. Qed.

Lemma sumn_shift n g : sumn (S n) g = g 0%nat + sumn n (fun i => g (S i)).
Proof. rewrite <- (Nat.add_1_l n), sumn_app, sumn_1. reflexivity. Qed.

Lemma poly_at_cons (a : K) (c : list K) x : poly_at (a :: c) x = a + x * poly_at c x.
Proof.
  unfold poly_at. cbn [length]. rewrite sumn_shift. cbn [nth fpow]. rewrite <- sumn_scale.
  rewrite fmul_1_r. f_equal. apply sumn_ext. intros. ring.
Qed.

Lemma poly_at_app (c d : list K) x : poly_at (c ++ d) x = poly_at c x + fpow x (length c) * poly_at d x.
Proof.
  induction c as [|a c IH]; cbn [app length fpow].
  - rewrite poly_at_nil. ring.
  - rewrite !poly_at_cons, IH. ring.
Qed.

Lemma poly_at_zeros n x : poly_at (repeat (0 : K) n) x = 0.
Proof. induction n; cbn [repeat]; [apply poly_at_nil|]. rewrite poly_at_cons, IHn. ring. Qed.

End Facts.
