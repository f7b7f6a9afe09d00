(** Abstract fields (with decidable equality) used by the polynomial, LogUp,
    sumcheck and GKR parts of the model, and the prime field Z/pZ as an
    instance.  Nothing here models a particular file of /repo: it is the
    mathematical vocabulary ("Field" trait, prover/arith/src/field_common.rs)
    that the models are written in. *)
From Coq Require Import ZArith Znumtheory Lia Ring Field List Bool Eqdep_dec Permutation.
Import ListNotations.

Record field := mkField {
  car :> Type;
  f0 : car; f1 : car;
  fadd : car -> car -> car;
  fmul : car -> car -> car;
  fsub : car -> car -> car;
  fopp : car -> car;
  fdiv : car -> car -> car;
  finv : car -> car;
  fth : field_theory f0 f1 fadd fmul fsub fopp fdiv finv (@eq car);
  feq_dec : forall x y : car, {x = y} + {x <> y} }.

Arguments f0 {_}. Arguments f1 {_}.
Arguments fadd {_}. Arguments fmul {_}. Arguments fsub {_}.
Arguments fopp {_}. Arguments fdiv {_}. Arguments finv {_}.
Arguments feq_dec {_}.

Declare Scope fld_scope.
Delimit Scope fld_scope with K.
Notation "0" := f0 : fld_scope.
Notation "1" := f1 : fld_scope.
Infix "+" := fadd : fld_scope.
Infix "*" := fmul : fld_scope.
Infix "-" := fsub : fld_scope.
Notation "- x" := (fopp x) : fld_scope.
Infix "/" := fdiv : fld_scope.

(** Boolean equality test ([==] on field elements). *)
Definition feqb {K : field} (x y : K) : bool := if feq_dec x y then true else false.

Lemma feqb_eq {K : field} (x y : K) : feqb x y = true <-> x = y.
Proof. unfold feqb; destruct (feq_dec x y); split; congruence. Qed.

Section FieldFacts.
Variable K : field.
Add Field Kfield : (fth K).
Local Open Scope fld_scope.

Lemma f1_neq_0 : (1 : K) <> 0.
Proof. exact (F_1_neq_0 (fth K)). Qed.

Lemma fmul_integral (x y : K) : x * y = 0 -> x = 0 \/ y = 0.
Proof.
  intros H. destruct (feq_dec x 0) as [e|n]; [now left|right].
  transitivity (finv x * (x * y)); [field; exact n|]. rewrite H. ring.
Qed.

Lemma fmul_nz (x y : K) : x <> 0 -> y <> 0 -> x * y <> 0.
Proof. intros hx hy H. destruct (fmul_integral _ _ H); contradiction. Qed.

Lemma fsub_eq (x y : K) : x - y = 0 <-> x = y.
Proof.
  split; [intros H|intros ->; ring].
  transitivity (x - y + y); [ring|]. rewrite H. ring.
Qed.

Lemma fadd_0_l (x : K) : 0 + x = x. Proof. ring. Qed.
Lemma fadd_0_r (x : K) : x + 0 = x. Proof. ring. Qed.
Lemma fmul_0_l (x : K) : 0 * x = 0. Proof. ring. Qed.
Lemma fmul_0_r (x : K) : x * 0 = 0. Proof. ring. Qed.
Lemma fmul_1_l (x : K) : 1 * x = x. Proof. ring. Qed.
Lemma fmul_1_r (x : K) : x * 1 = x. Proof. ring. Qed.
Lemma fadd_comm (x y : K) : x + y = y + x. Proof. ring. Qed.
Lemma fmul_comm (x y : K) : x * y = y * x. Proof. ring. Qed.
Lemma fadd_assoc (x y z : K) : x + (y + z) = x + y + z. Proof. ring. Qed.
Lemma fmul_assoc (x y z : K) : x * (y * z) = x * y * z. Proof. ring. Qed.

(** Sum of a list. *)
Fixpoint fsum (l : list K) : K :=
  match l with [] => 0 | a :: r => a + fsum r end.

Lemma fsum_app l1 l2 : fsum (l1 ++ l2) = fsum l1 + fsum l2.
Proof. induction l1 as [|a l IH]; cbn; [ring|]. rewrite IH. ring. Qed.

Lemma fsum_scale (c : K) l : fsum (map (fun x => c * x) l) = c * fsum l.
Proof. induction l as [|a l IH]; cbn; [ring|]. rewrite IH. ring. Qed.

Lemma fsum_map_add {A} (f g : A -> K) l :
  fsum (map (fun x => f x + g x) l) = fsum (map f l) + fsum (map g l).
Proof. induction l as [|a l IH]; cbn; [ring|]. rewrite IH. ring. Qed.

Lemma fsum_map_scale {A} (c : K) (f : A -> K) l :
  fsum (map (fun x => c * f x) l) = c * fsum (map f l).
Proof. induction l as [|a l IH]; cbn; [ring|]. rewrite IH. ring. Qed.

Lemma fsum_map_0 {A} (f : A -> K) l :
  (forall x, In x l -> f x = 0) -> fsum (map f l) = 0.
Proof.
  induction l as [|a l IH]; cbn; intros H; [reflexivity|].
  rewrite (H a) by auto. rewrite IH by auto. ring.
Qed.

Lemma fsum_ext {A} (f g : A -> K) l :
  (forall x, In x l -> f x = g x) -> fsum (map f l) = fsum (map g l).
Proof.
  induction l as [|a l IH]; cbn; intros H; [reflexivity|].
  rewrite (H a) by auto. rewrite IH by auto. reflexivity.
Qed.

(** Exchanging two finite sums. *)
Lemma fsum_swap {A B} (f : A -> B -> K) la lb :
  fsum (map (fun a => fsum (map (f a) lb)) la)
  = fsum (map (fun b => fsum (map (fun a => f a b) la)) lb).
Proof.
  induction la as [|a la IH]; cbn.
  - symmetry. apply fsum_map_0. reflexivity.
  - rewrite IH. symmetry. apply fsum_map_add.
Qed.

Lemma fsum_perm l1 l2 : Permutation l1 l2 -> fsum l1 = fsum l2.
Proof. induction 1; cbn; try congruence. ring. Qed.

(** Sum of the images of a natural number, [n * 1]. *)
Fixpoint f_of_nat (n : nat) : K :=
  match n with O => 0 | S m => 1 + f_of_nat m end.

Lemma f_of_nat_add m n : f_of_nat (m + n) = f_of_nat m + f_of_nat n.
Proof. induction m as [|m IH]; cbn; [ring|]. rewrite IH. ring. Qed.

(** Powers. *)
Fixpoint fpow (x : K) (n : nat) : K :=
  match n with O => 1 | S m => x * fpow x m end.

Lemma fpow_add x m n : fpow x (m + n) = fpow x m * fpow x n.
Proof. induction m as [|m IH]; cbn; [ring|]. rewrite IH. ring. Qed.

End FieldFacts.
Arguments fsum {_}. Arguments f_of_nat {_}. Arguments fpow {_}.

(** ** The prime field Z/pZ *)

Section Fp.
Variable p : Z.
Local Open Scope Z_scope.

Definition canonicalb (x : Z) : bool := (x mod p =? x).
Definition Fp : Type := { x : Z | canonicalb x = true }.

Definition fval (x : Fp) : Z := proj1_sig x.

Lemma fval_inj (x y : Fp) : fval x = fval y -> x = y.
Proof.
  destruct x as [x hx], y as [y hy]. cbn. intros ->. f_equal.
  apply UIP_dec. apply bool_dec.
Qed.

Lemma fval_canon (x : Fp) : fval x mod p = fval x.
Proof. destruct x as [x hx]. cbn. unfold canonicalb in hx. now apply Z.eqb_eq. Qed.

Definition to_fp (x : Z) : Fp.
Proof. refine (exist _ (x mod p) _). unfold canonicalb. apply Z.eqb_eq. apply Zmod_mod. Defined.

Lemma fval_to_fp x : fval (to_fp x) = x mod p.
Proof. reflexivity. Qed.

Lemma to_fp_fval x : to_fp (fval x) = x.
Proof. apply fval_inj. rewrite fval_to_fp. apply fval_canon. Qed.

Lemma to_fp_eq x y : to_fp x = to_fp y <-> x mod p = y mod p.
Proof.
  split; intros H.
  - apply (f_equal fval) in H. exact H.
  - apply fval_inj. exact H.
Qed.

Hypothesis Hp : prime p.

(** Inverse by Bezout.  [bezout] computes; the library's [euclid] does not, it is the
    fallback that makes the inverse correct without a proof about [bezout]. *)
Fixpoint bezout (fuel : nat) (a b : Z) : Z * Z :=
  match fuel with
  | O => (1, 0)
  | S k => if b =? 0 then (1, 0) else let (u, v) := bezout k b (a mod b) in (v, u - a / b * v)
  end.
Definition zinv (x : Z) : Z :=
  let u := fst (bezout (Z.to_nat (2 * Z.log2 p + 4)) (x mod p) p) in
  if (u * x) mod p =? 1 then u
  else match euclid x p with
       | Euclid_intro _ _ u _ d _ _ => if d <? 0 then - u else u
       end.

Lemma zinv_correct x : x mod p <> 0 -> (zinv x * x) mod p = 1.
Proof.
  intros Hx. unfold zinv. cbv zeta. destruct (Z.eqb_spec ((fst (bezout (Z.to_nat (2 * Z.log2 p + 4)) (x mod p) p) * x) mod p) 1) as [E|_]; [exact E|].
  destruct (euclid x p) as [u v d Huv Hd].
  assert (p1 : 1 < p) by (destruct Hp; lia).
  assert (rel : rel_prime x p).
  { apply rel_prime_sym. apply prime_rel_prime; [assumption|].
    intros Hdiv. apply Hx. apply Zdivide_mod. exact Hdiv. }
  assert (dd : d = 1 \/ d = -1).
  { apply Zis_gcd_uniqueness_apart_sign with (a := x) (b := p); [exact Hd|exact rel]. }
  destruct dd as [-> | ->].
  - change (1 <? 0) with false. cbv iota.
    replace (u * x) with (1 + (- v) * p) by lia.
    rewrite Z_mod_plus_full. apply Z.mod_small. lia.
  - change (-1 <? 0) with true. cbv iota.
    replace (- u * x) with (1 + v * p) by lia.
    rewrite Z_mod_plus_full. apply Z.mod_small. lia.
Qed.

Definition fp_add x y := to_fp (fval x + fval y).
Definition fp_mul x y := to_fp (fval x * fval y).
Definition fp_sub x y := to_fp (fval x - fval y).
Definition fp_opp x := to_fp (- fval x).
Definition fp_inv x := to_fp (zinv (fval x)).
Definition fp_div x y := fp_mul x (fp_inv y).

Lemma fp_field_theory :
  field_theory (to_fp 0) (to_fp 1) fp_add fp_mul fp_sub fp_opp fp_div fp_inv (@eq Fp).
Proof.
  assert (p1 : 1 < p) by (destruct Hp; lia).
  constructor.
  - constructor; intros; apply fval_inj;
      unfold fp_add, fp_mul, fp_sub, fp_opp; rewrite ?fval_to_fp;
      rewrite ?Zplus_mod_idemp_l, ?Zplus_mod_idemp_r, ?Zmult_mod_idemp_l, ?Zmult_mod_idemp_r.
    + apply fval_canon.
    + f_equal; lia.
    + f_equal; lia.
    + rewrite Z.mul_1_l. apply fval_canon.
    + f_equal; lia.
    + f_equal; lia.
    + f_equal; lia.
    + f_equal; lia.
    + f_equal; lia.
  - intros H. apply (f_equal fval) in H. rewrite !fval_to_fp in H.
    rewrite !Z.mod_small in H; lia.
  - reflexivity.
  - intros x Hx. apply fval_inj. unfold fp_mul, fp_inv. rewrite !fval_to_fp.
    rewrite Zmult_mod_idemp_l. rewrite zinv_correct.
    + symmetry. apply Z.mod_small. lia.
    + rewrite fval_canon. intros E. apply Hx. apply fval_inj. rewrite E. reflexivity.
Qed.

Lemma fp_eq_dec (x y : Fp) : {x = y} + {x <> y}.
Proof.
  destruct (Z.eq_dec (fval x) (fval y)) as [e|n].
  - left. now apply fval_inj.
  - right. intros E. apply n. now rewrite E.
Defined.

Definition Fp_field : field :=
  mkField Fp (to_fp 0) (to_fp 1) fp_add fp_mul fp_sub fp_opp fp_div fp_inv
    fp_field_theory fp_eq_dec.

(** All elements of the field, without repetition. *)
Definition fp_all : list Fp := map (fun i => to_fp (Z.of_nat i)) (seq 0 (Z.to_nat p)).

Lemma fp_all_length : Z.of_nat (length fp_all) = p.
Proof.
  unfold fp_all. rewrite map_length, seq_length. apply Z2Nat.id. destruct Hp; lia.
Qed.

Lemma fp_all_complete x : In x fp_all.
Proof.
  assert (p1 : 1 < p) by (destruct Hp; lia).
  unfold fp_all. apply in_map_iff. exists (Z.to_nat (fval x)).
  pose proof (fval_canon x). pose proof (Z.mod_pos_bound (fval x) p).
  split.
  - rewrite Z2Nat.id by lia. apply to_fp_fval.
  - apply in_seq. split; [lia|]. cbn. apply Z2Nat.inj_lt; lia.
Qed.

Lemma fp_all_nodup : NoDup fp_all.
Proof.
  assert (p1 : 1 < p) by (destruct Hp; lia).
  unfold fp_all.
  assert (G : forall l, NoDup l -> (forall i, In i l -> (i < Z.to_nat p)%nat) ->
     NoDup (map (fun i => to_fp (Z.of_nat i)) l)).
  { induction l as [|a l IH]; intros ND HB; cbn; [constructor|].
    inversion ND; subst. constructor.
    - intros Hin. apply in_map_iff in Hin as [b [Hb Hbl]].
      assert (a < Z.to_nat p)%nat by (apply HB; now left).
      assert (b < Z.to_nat p)%nat by (apply HB; now right).
      apply to_fp_eq in Hb.
      rewrite !Z.mod_small in Hb by (split; lia).
      apply Nat2Z.inj in Hb. subst. contradiction.
    - apply IH; [assumption|]. intros i Hi. apply HB. now right. }
  apply G; [apply seq_NoDup|]. intros i Hi. apply in_seq in Hi. lia.
Qed.

End Fp.
