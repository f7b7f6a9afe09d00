From Coq Require Import List Arith Bool Reals String ZArith Lia Lra.
From Verif Require Import Spec.Shapes Spec.Tensors Spec.RealOps Spec.Widths Model.Bounds Proofs.Bounds Proofs.Bounds2 Proofs.Bounds3 Proofs.Bounds4 Proofs.Bounds5.
Import ListNotations.
Local Open Scope string_scope.
Local Open Scope nat_scope.
Local Open Scope R_scope.

Lemma widths : widths_suffice supported.
Proof.
  intros alpha shapes names layers env bs nb Ha [R O] ND A H.
  exact (proj2 (bounds_hold alpha shapes names layers env bs nb Ha R O A H) ND).
Qed.

(** ** The width *)
Lemma L2 : 0 < ln 2. Proof. rewrite <- ln_1; apply ln_increasing; lra. Qed.
Lemma ln_pow2 k : ln (2 ^ k) = INR k * ln 2. Proof. apply ln_pow. lra. Qed.
Lemma ceil_unique x k : IZR k - 1 < x <= IZR k -> (- Int_part (- x))%Z = k.
Proof.
  intros [A B]. pose proof (base_Int_part (- x)) as [C D]. set (z := Int_part (- x)) in *.
  assert (IZR (- k) - 1 < IZR z) by (rewrite opp_IZR; lra). assert (IZR z < IZR (- k) + 1) by (rewrite opp_IZR; lra).
  rewrite <- minus_IZR in H. rewrite <- plus_IZR in H0. apply lt_IZR in H, H0. lia.
Qed.
Lemma ceil_log v k : 2 ^ k < v <= 2 ^ S k -> ceil_nat (ln v / ln 2) = S k.
Proof.
  intros [A B]. unfold ceil_nat. pose proof L2. assert (P : 0 < 2 ^ k) by (apply pow_lt; lra).
  rewrite (ceil_unique _ (Z.of_nat (S k))); [apply Nat2Z.id|].
  rewrite <- INR_IZR_INZ. assert (V : 0 < v) by lra. apply ln_increasing in A; [|exact P]. rewrite ln_pow2 in A.
  assert (B' : ln v <= ln (2 ^ S k)). { destruct B as [B|B]; [left; apply ln_increasing; assumption|rewrite B; apply Rle_refl]. }
  rewrite ln_pow2 in B'. rewrite S_INR in *. split.
  - apply Rmult_lt_reg_r with (ln 2); [exact H|]. unfold Rdiv. rewrite (Rmult_assoc (ln v)), Rinv_l by lra. lra.
  - apply Rmult_le_reg_r with (ln 2); [exact H|]. unfold Rdiv. rewrite (Rmult_assoc (ln v)), Rinv_l by lra. lra.
Qed.
(** The width is the least one that holds the bound, and at least 2. *)
Lemma n_bits_eq alpha bound k : 2 ^ k < Rabs (alpha * bound) <= 2 ^ S k -> compute_n_bits alpha bound = S (S k).
Proof.
  intros H. unfold compute_n_bits. destruct (Rle_dec _ 1) as [L|L].
  - assert (1 <= 2 ^ k) by (apply pow_R1_Rle; lra). lra.
  - rewrite (ceil_log _ k H). lia.
Qed.
Lemma pow2_between v : 1 < v -> exists k, 2 ^ k < v <= 2 ^ S k.
Proof.
  intros H. assert (E : exists n, v <= 2 ^ n).
  { destruct (Pow_x_infinity 2) with (b := v) as [N HN]; [rewrite Rabs_right; lra|]. exists N. specialize (HN N (le_n N)).
    rewrite Rabs_right in HN; [lra|]. left. apply pow_lt. lra. }
  destruct E as [n Hn]. induction n as [|n IH]; [cbn in Hn; lra|].
  destruct (Rle_dec v (2 ^ n)) as [L|L]; [auto|]. exists n. split; [lra|exact Hn].
Qed.
Lemma n_bits_least alpha bound k : (2 <= k)%nat -> Rabs (alpha * bound) <= 2 ^ (k - 1) -> (compute_n_bits alpha bound <= k)%nat.
Proof.
  intros Hk H. destruct (Rle_dec (Rabs (alpha * bound)) 1) as [L|L].
  - unfold compute_n_bits. destruct (Rle_dec _ 1); [exact Hk|contradiction].
  - destruct (pow2_between (Rabs (alpha * bound))) as [m Hm]; [lra|]. rewrite (n_bits_eq _ _ m Hm).
    destruct (Nat.le_gt_cases (k - 1) m) as [G|G]; [|lia].
    assert (2 ^ (k - 1) <= 2 ^ m) by (apply Rle_pow; [lra|exact G]). lra.
Qed.
Lemma n_bits_19 : compute_n_bits (2 ^ 18) 1 = 19%nat.
Proof. rewrite (n_bits_eq _ _ 17); [reflexivity|]. rewrite Rmult_1_r, Rabs_right; cbn; lra. Qed.
Lemma huge b : b <= 2 ^ 30 -> ~ f64_max / 2 ^ 18 < b.
Proof.
  intros H C. unfold f64_max in C. replace 1023%nat with (30 + 18 + 975)%nat in C by reflexivity. rewrite !pow_add in C.
  assert (E : 1 <= 2 ^ 975) by (apply pow_R1_Rle; lra). assert (F : / 2 ^ 52 < 1).
  { rewrite <- Rinv_1. apply Rinv_lt_contravar; [rewrite Rmult_1_l; apply pow_lt; lra|]. apply Rlt_pow_R1; [lra|lia]. }
  assert (P : 0 < 2 ^ 18) by (apply pow_lt; lra). assert (Q : 0 < 2 ^ 30) by (apply pow_lt; lra).
  set (a := 2 ^ 18) in *. set (q := 2 ^ 30) in *. set (z := 2 ^ 975) in *. set (e := / 2 ^ 52) in *.
  replace ((2 - e) * (q * a * z) / a) with ((2 - e) * (q * z)) in C by (field; lra).
  assert (q * 1 <= q * z) by (apply Rmult_le_compat_l; lra).
  assert (1 * (q * z) <= (2 - e) * (q * z)) by (apply Rmult_le_compat_r; lra). lra.
Qed.

(** ** Counterexamples *)
Definition mk (k : op) (i o : list string) : node :=
  {| kind := k; inputs := i; outputs := o; trans_b := false; slope := None; epsilon := None |}.
Definition vec (l : list R) : tensor R := {| dims := [List.length l]; flat := l |}.
Definition env_of (l : list (string * tensor R)) : valuation := fun s => map_get s l.
Lemma env_all l P : Forall (fun c => P (fst c) (snd c)) l -> forall s t, env_of l s = Some t -> P s t.
Proof. intros H s t E. apply map_get_in in E. exact (proj1 (Forall_forall _ _) H _ E). Qed.
Ltac entries := repeat match goal with |- Forall _ _ => constructor end.
Ltac outs := intros ? ? ? ? Hin; cbn in Hin; repeat (destruct Hin as [<-|Hin]; [intros E1 E2|]); [..|destruct Hin];
  repeat match goal with E : nth_error _ ?j = Some _ |- _ => destruct j; cbn in E; [injection E as <-|] end;
  try match goal with E : nth_error _ ?j = Some _ |- _ => destruct j; discriminate E end;
  match goal with E : _ = Some ?t |- _ => injection E as <- end.

Ltac ord := cbn [ordered map fst snd body weights inputs outputs]; repeat split; entries; cbn; auto 10.
Lemma r18 : 1 <= 2 ^ 18. Proof. cbn. lra. Qed.

(** Max with a constant *)
Definition max_layer : layer := {| name := "m"; body := mk Max ["x"; "c"] ["y"]; weights := [("c", vec [100])] |}.
Definition max_env := env_of [("x", vec [1]); ("c", vec [100]); ("y", vec [100])].
Lemma max_narrow : ~ widths_suffice (fun alpha shapes env l => kind (body l) = Max \/ supported alpha shapes env l).
Proof.
  intros H. specialize (H (2 ^ 18) (fun _ => None) ["x"] [max_layer] max_env [("y", 1); ("x", 1)] [("m", 19%nat)] r18).
  destruct H with (l := max_layer) as (k & Ek & G).
  - split; [split; [|split]|].
    + intros s t [<-|[]] [= <-]. entries. rewrite Rabs_R1. lra.
    + outs. entries. exists 1%nat. left. reflexivity.
    + apply env_all. entries; reflexivity.
    + ord.
  - repeat constructor. intros [].
  - repeat constructor.
  - unfold compute_bounds. cbn [bounds_loop]. unfold layer_bound, compute_layer_bound. cbn -[pow f64_max compute_n_bits].
    unfold input_bound. cbn -[pow f64_max compute_n_bits]. rewrite n_bits_19. destruct (Rlt_dec _ _) as [C|C]; [|reflexivity].
    destruct (huge 1); [cbn; lra|exact C].
  - left. reflexivity.
  - reflexivity.
  - cbn in Ek. injection Ek as <-. specialize (G 0%nat "y" (vec [100]) eq_refl eq_refl). inversion G as [|? ? B _]; subst.
    specialize (B ltac:(discriminate)). rewrite Rabs_right in B; cbn in B; lra.
Qed.
