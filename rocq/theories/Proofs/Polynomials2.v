From Coq Require Import List Arith Lia Ring Field Bool.
From Verif Require Import Base.Field Base.Array Spec.Multilinear Model.Polynomials Proofs.Multilinear Proofs.Polynomials.
Import ListNotations.

Section Proofs.
Variable K : field.
Add Field Kf : (fth K).
Implicit Types (f g : nat -> K) (a b x h r : K).
Local Open Scope fld_scope.

(** ** Interpolation over the hypercube *)
Lemma chunks_fuel size (l : list K) : (0 < size)%nat -> forall f1 f2 : nat, (length l <= f1)%nat -> (length l <= f2)%nat ->
  chunks f1 size l = chunks f2 size l.
Proof.
  intros Hs f1. revert l. induction f1 as [|f1 IH]; intros l f2 H1 H2.
  - destruct l; [|cbn in H1; lia]. destruct f2; reflexivity.
  - destruct l as [|a l]; [destruct f2; reflexivity|]. destruct f2 as [|f2]; [cbn in H2; lia|].
    cbn [chunks]. f_equal. apply IH; rewrite skipn_length; cbn [length] in *; lia.
Qed.

Lemma chunks_app size q (l1 l2 : list K) : (0 < size)%nat -> length l1 = (q * size)%nat ->
  forall fuel, (length (l1 ++ l2) <= fuel)%nat ->
  chunks fuel size (l1 ++ l2) = chunks (length l1) size l1 ++ chunks (length l2) size l2.
Proof.
  intros Hs. revert l1. induction q as [|q IH]; intros l1 L fuel HF.
  - destruct l1; [|discriminate]. cbn [app]. cbn [length chunks app]. apply chunks_fuel; auto.
  - destruct l1 as [|a l1']; [cbn in L; lia|]. set (l1 := a :: l1') in *.
    assert (Hl : l1 = firstn size l1 ++ skipn size l1) by (symmetry; apply firstn_skipn).
    assert (Lf : length (firstn size l1) = size) by (apply firstn_length_le; lia).
    assert (Ls : length (skipn size l1) = (q * size)%nat) by (rewrite skipn_length; lia).
    destruct fuel as [|fuel]; [cbn in HF; lia|].
    transitivity (firstn size l1 :: chunks fuel size (skipn size l1 ++ l2)).
    { change (chunks (S fuel) size (l1 ++ l2)) with (firstn size (l1 ++ l2) :: chunks fuel size (skipn size (l1 ++ l2))).
      f_equal; [|f_equal].
      - rewrite firstn_app. replace (size - length l1)%nat with 0%nat by lia. cbn [firstn]. apply app_nil_r.
      - rewrite skipn_app. replace (size - length l1)%nat with 0%nat by lia. reflexivity. }
    rewrite (IH _ Ls) by (rewrite app_length in *; rewrite Ls, L in *; lia).
    rewrite (chunks_fuel size l1 Hs (length l1) (S (length l1))) by lia.
    change (chunks (S (length l1)) size l1) with (firstn size l1 :: chunks (length l1) size (skipn size l1)).
    cbn [app]. f_equal. f_equal. apply chunks_fuel; lia.
Qed.

Definition stp (coeffs : list K) (i : nat) : list K :=
  flat_map (interp_chunk (2 ^ i / 2)) (chunks (length coeffs) (2 ^ i) coeffs).

Lemma stp_app i q l1 l2 : length l1 = (q * 2 ^ i)%nat -> stp (l1 ++ l2) i = stp l1 i ++ stp l2 i.
Proof.
  intros L. unfold stp. rewrite (chunks_app _ q) by (auto; pose proof (pow2_nz i); lia).
  apply flat_map_app.
Qed.

Lemma stp_one i l : length l = (2 ^ i)%nat -> stp l i = interp_chunk (2 ^ i / 2) l.
Proof.
  intros L. pose proof (pow2_nz i). unfold stp.
  rewrite (chunks_fuel _ l) with (f2 := S (length l)) by lia.
  destruct l as [|a l]; [cbn in L; lia|]. set (l1 := a :: l) in *.
  change (chunks (S (length l1)) (2 ^ i) l1) with (firstn (2 ^ i) l1 :: chunks (length l1) (2 ^ i) (skipn (2 ^ i) l1)).
  rewrite <- L, firstn_all, skipn_all. replace (chunks (length l1) (length l1) []) with (@nil (list K)) by (destruct (length l1); reflexivity).
  cbn [flat_map]. apply app_nil_r.
Qed.

Lemma interp_chunk_length (h : nat) l : length l = (2 * h)%nat -> length (interp_chunk (K:=K) h l) = length l.
Proof.
  intros L. unfold interp_chunk. rewrite app_length, map_length, combine_length, skipn_length, firstn_length. lia.
Qed.

Lemma half_pow i : (2 ^ S i / 2 = 2 ^ i)%nat.
Proof. rewrite Nat.pow_succ_r', Nat.mul_comm, Nat.div_mul; lia. Qed.

Lemma stp_length i q l : length l = (q * 2 ^ S i)%nat -> length (stp l (S i)) = length l.
Proof.
  revert l. induction q as [|q IH]; intros l L.
  - destruct l; [reflexivity|discriminate].
  - rewrite <- (firstn_skipn (2 ^ S i) l) at 1.
    assert (L1 : length (firstn (2 ^ S i) l) = (2 ^ S i)%nat) by (apply firstn_length_le; lia).
    rewrite (stp_app _ 1) by lia. rewrite app_length, stp_one by auto.
    rewrite half_pow, interp_chunk_length by (rewrite L1; apply Nat.pow_succ_r').
    rewrite IH by (rewrite skipn_length; lia). rewrite L1, skipn_length. lia.
Qed.

Lemma fold_stp_app is n q : (forall i, In i is -> (1 <= i <= n)%nat) -> forall l1 l2, length l1 = (q * 2 ^ n)%nat ->
  fold_left stp is (l1 ++ l2) = fold_left stp is l1 ++ fold_left stp is l2 /\ length (fold_left stp is l1) = length l1.
Proof.
  induction is as [|i is IH]; intros H l1 l2 L; [split; reflexivity|]. cbn [fold_left].
  assert (Hi : (1 <= i <= n)%nat) by (apply H; left; auto).
  assert (Lq : length l1 = (q * 2 ^ (n - i) * 2 ^ i)%nat).
  { rewrite L, <- Nat.mul_assoc, <- Nat.pow_add_r. do 2 f_equal. lia. }
  assert (Ls : length (stp l1 i) = length l1).
  { destruct i as [|i]; [lia|]. exact (stp_length i _ l1 Lq). }
  rewrite (stp_app _ _ l1 l2 Lq).
  destruct (IH (fun j Hj => H j (or_intror Hj)) (stp l1 i) (stp l2 i)) as (E1 & E2); [lia|].
  rewrite E1, E2. auto.
Qed.

Theorem interpolate_ok n : forall (l : list K) f, arr l (2 ^ n) f ->
  exists c, arr (interpolate_over_hypercube l) (2 ^ n) c /\
    forall r : list K, length r = n -> from_coeffs c r = mle f r.
Proof.
  intros l f H. unfold interpolate_over_hypercube. rewrite (proj1 H), log2_up_pow.
  change (fun coeffs i => flat_map (interp_chunk (2 ^ i / 2)) (chunks (length coeffs) (2 ^ i) coeffs)) with stp.
  revert l f H. induction n as [|n IH]; intros l f H.
  - cbn [seq fold_left]. exists f. split; auto. intros r Hr. destruct r; [|discriminate].
    now rewrite from_coeffs_nil, mle_nil.
  - rewrite seq_S, fold_left_app. cbn [fold_left Nat.add].
    assert (P2 : (2 ^ S n = 2 ^ n + 2 ^ n)%nat) by (rewrite Nat.pow_succ_r'; lia).
    pose proof (arr_firstn _ _ _ (2 ^ n) H ltac:(lia)) as H1.
    pose proof (arr_skipn _ _ _ (2 ^ n) H ltac:(lia)) as H2. rewrite P2, Nat.add_sub in H2.
    rewrite <- (firstn_skipn (2 ^ n) l).
    destruct (fold_stp_app (seq 1 n) n 1 ltac:(intros i Hi; apply in_seq in Hi; lia) (firstn (2 ^ n) l) (skipn (2 ^ n) l)) as (E & _);
      [rewrite (proj1 H1); lia|].
    rewrite E. destruct (IH _ _ H1) as (c1 & A1 & F1). destruct (IH _ _ H2) as (c2 & A2 & F2).
    set (t1 := fold_left stp (seq 1 n) (firstn (2 ^ n) l)) in *.
    set (t2 := fold_left stp (seq 1 n) (skipn (2 ^ n) l)) in *.
    rewrite stp_one by (rewrite app_length, (proj1 A1), (proj1 A2); lia).
    unfold interp_chunk. rewrite half_pow.
    assert (Ef : firstn (2 ^ n) (t1 ++ t2) = t1).
    { rewrite firstn_app, (proj1 A1), Nat.sub_diag. cbn [firstn]. rewrite app_nil_r.
      rewrite <- (proj1 A1). apply firstn_all. }
    assert (Es : skipn (2 ^ n) (t1 ++ t2) = t2).
    { rewrite skipn_app, (proj1 A1), Nat.sub_diag. cbn [skipn].
      rewrite <- (proj1 A1), skipn_all. reflexivity. }
    rewrite Ef, Es.
    pose proof (arr_app _ _ _ _ _ _ A1 (arr_map _ _ _ (fun ab => fst ab - snd ab) (arr_combine _ _ _ _ _ A2 A1))) as A.
    rewrite <- P2 in A. eexists. split; [exact A|].
    intros r Hr. destruct r as [|a0 r0] using rev_ind; [discriminate|]. clear IHr0.
    rewrite app_length in Hr. cbn [length] in Hr. assert (Hr' : length r0 = n) by lia.
    rewrite from_coeffs_snoc, mle_snoc, Hr'.
    transitivity (from_coeffs c1 r0 + a0 * from_coeffs (fun i => c2 i - c1 i) r0).
    { f_equal; [|f_equal]; apply from_coeffs_ext; intros i Hi; rewrite Hr' in Hi.
      - destruct (Nat.ltb_spec i (2 ^ n)); [reflexivity|lia].
      - destruct (Nat.ltb_spec (2 ^ n + i) (2 ^ n)); [lia|].
        cbn [fst snd]. replace (2 ^ n + i - 2 ^ n)%nat with i by lia. reflexivity. }
    rewrite from_coeffs_minus, (F1 _ Hr'), (F2 _ Hr'). ring.
Qed.

(** ** fix_bottom_variable *)
Lemma fix_bottom_ok c n f a : arr c (2 * n) f ->
  exists c', fix_bottom_variable c a = Some c' /\
    arr c' n (fun i => f i + (f (2 * i + 1)%nat - f (2 * i)%nat) * a).
Proof.
  intros H. unfold fix_bottom_variable. rewrite (proj1 H).
  replace (2 * n / 2)%nat with n by (rewrite Nat.mul_comm, Nat.div_mul; lia).
  destruct (for_seq (fun j c => arr c (2 * n) (fun k => if (k <? j)%nat then f k + (f (2 * k + 1)%nat - f (2 * k)%nat) * a else f k))
    (fun i c => let* x := aget c i in
      let* h := aget c (2 * i + 1) in
      let* l := aget c (2 * i) in
      aset c i (x + (h - l) * a)) 0 n c) as (c' & E & H').
  - apply (arr_ext _ _ _ _ H). intros k Hk. nb; reflexivity.
  - intros j t Hj A. rewrite !(arr_get _ _ _ _ A) by lia. cbn [obind].
    destruct (Nat.ltb_spec j j); [lia|]. destruct (Nat.ltb_spec (2 * j + 1) j); [lia|]. destruct (Nat.ltb_spec (2 * j) j); [lia|].
    destruct (arr_set _ _ _ j (f j + (f (2 * j + 1)%nat - f (2 * j)%nat) * a) A) as (t' & E & A'); [lia|].
    exists t'. split; auto. apply (arr_ext _ _ _ _ A'). intros k Hk. nb; try reflexivity. now subst.
  - rewrite E. cbn [obind]. eexists. split; [reflexivity|].
    apply arr_ext with (f := fun k => if (k <? 0 + n)%nat then f k + (f (2 * k + 1)%nat - f (2 * k)%nat) * a else f k).
    + apply arr_firstn with (2 * n)%nat; [exact H'|lia].
    + intros i Hi. destruct (Nat.ltb_spec i (0 + n)); [reflexivity|lia].
Qed.

(** The result is the polynomial with the lowest variable fixed exactly when
    the table satisfies f(i) = f(2i) on the lower half. *)
Theorem fix_bottom_iff c n f a : arr c (2 ^ S n) f ->
  exists c' g, fix_bottom_variable c a = Some c' /\ arr c' (2 ^ n) g /\
    ((forall r : list K, length r = n -> mle g r = mle f (a :: r)) <-> (forall i, (i < 2 ^ n)%nat -> f i = f (2 * i)%nat)).
Proof.
  rewrite Nat.pow_succ_r'. intros H. destruct (fix_bottom_ok c (2 ^ n) f a H) as (c' & E & A).
  exists c'. eexists. split; [exact E|]. split; [exact A|]. split.
  - intros Hall i Hi. specialize (Hall (bits_of K n i) (bits_of_length K n i)).
    rewrite mle_cons, !mle_bits in Hall by auto.
    replace (f i) with (f i + (f (2 * i + 1)%nat - f (2 * i)%nat) * a - (f (2 * i + 1)%nat - f (2 * i)%nat) * a) by ring.
    rewrite Hall. ring.
  - intros Hf r Hr. rewrite mle_cons.
    rewrite (mle_ext _ _ (fun i => (1 - a) * f (2 * i)%nat + a * f (2 * i + 1)%nat)).
    + rewrite mle_plus, !mle_scale. reflexivity.
    + intros i Hi. rewrite Hr in Hi. rewrite (Hf i Hi). ring.
Qed.

Theorem fix_bottom_wrong : exists c' : list K, fix_bottom_variable [0; 0; 1; 0] 0 = Some c' /\
  forall g, arr c' 2 g -> mle g [1] <> mle (fun i => nth i [0; 0; 1; 0] (0 : K)) [0; 1].
Proof.
  eexists. split; [reflexivity|]. intros g (L & H) E.
  rewrite mle_cons, !mle_nil, !mle_cons, !mle_nil in E. cbn in E.
  pose proof (H 0%nat ltac:(lia)) as G0. pose proof (H 1%nat ltac:(lia)) as G1. cbn in G0, G1.
  injection G0 as G0. injection G1 as G1. rewrite <- G0, <- G1 in E.
  apply (f1_neq_0 K). transitivity ((1 - 0) * ((1 - 1) * 0 + 1 * 1) + 0 * ((1 - 1) * 0 + 1 * 0) : K); [ring|].
  rewrite <- E. ring.
Qed.

(** ** Univariate polynomials *)
Theorem uni_evaluate_ok (c : list K) x : uni_evaluate c x = poly_at c x.
Proof.
  unfold uni_evaluate. rewrite <- fold_left_rev_right, rev_involutive.
  induction c as [|a c IH]; cbn [fold_right]; [now rewrite poly_at_nil|].
  rewrite IH, poly_at_cons. ring.
Qed.

Fixpoint synth (r : K) (c : list K) : list K :=
  match c with
  | [] => []
  | a :: t => match synth r t with [] => [a] | h :: d => (a + h * r) :: h :: d end
  end.

Lemma synth_length r c : length (synth r c) = length c.
Proof. induction c as [|a c IH]; cbn; auto. destruct (synth r c); cbn in *; lia. Qed.

Lemma aget_mid (pre : list K) x t : aget (pre ++ x :: t) (length pre) = Some x.
Proof. unfold aget. rewrite nth_error_app2, Nat.sub_diag by lia. reflexivity. Qed.

Lemma aset_mid (pre : list K) x t v : aset (pre ++ x :: t) (length pre) v = Some (pre ++ v :: t).
Proof. induction pre as [|a pre IH]; cbn; [reflexivity|]. now rewrite IH. Qed.

Lemma synth_loop r c : forall pre,
  for_in (rev (seq (1 + length pre) (length c - 1))) (fun i d =>
      let* x := aget d i in
      let* y := aget d (i - 1) in
      aset d (i - 1) (y + x * r)) (pre ++ c) = Some (pre ++ synth r c).
Proof.
  induction c as [|a c IH]; intros pre; [reflexivity|].
  cbn [length]. replace (S (length c) - 1)%nat with (length c) by lia.
  destruct c as [|b c]; [reflexivity|]. cbn [length] in *.
  cbn [seq rev]. rewrite for_in_app.
  specialize (IH (pre ++ [a])). rewrite app_length in IH. cbn [length] in IH.
  replace (S (length c) - 1)%nat with (length c) in IH by lia.
  replace (S (1 + length pre)) with (1 + (length pre + 1))%nat by lia.
  rewrite <- app_assoc in IH. cbn [app] in IH. rewrite IH. cbn [obind for_in].
  change (synth r (a :: b :: c)) with (match synth r (b :: c) with [] => [a] | h :: d => (a + h * r) :: h :: d end).
  pose proof (synth_length r (b :: c)) as L. destruct (synth r (b :: c)) as [|h d] eqn:E; [discriminate|].
  rewrite <- app_assoc. cbn [app].
  assert (G1 : aget (pre ++ a :: h :: d) (S (length pre)) = Some h).
  { pose proof (aget_mid (pre ++ [a]) h d) as G. rewrite app_length in G. cbn [length] in G.
    rewrite Nat.add_1_r, <- app_assoc in G. exact G. }
  cbn [Nat.add]. rewrite G1. cbn [obind]. rewrite Nat.sub_succ, Nat.sub_0_r, aget_mid. cbn [obind].
  rewrite aset_mid. reflexivity.
Qed.

Lemma synth_poly r c x : forall q rem, synth r c = rem :: q ->
  poly_at c x = (x - r) * poly_at q x + rem.
Proof.
  induction c as [|a c IH]; intros q rem E; [discriminate|]. cbn [synth] in E. rewrite poly_at_cons.
  destruct (synth r c) as [|h d] eqn:S.
  - pose proof (synth_length r c) as L. rewrite S in L. destruct c; [|discriminate].
    injection E as <- <-. rewrite !poly_at_nil. ring.
  - injection E as <- <-. rewrite (IH _ _ eq_refl), poly_at_cons. ring.
Qed.

Lemma synth_shift r q : forall prev, synth r (shift_sub r prev q) = prev :: q.
Proof.
  induction q as [|b q IH]; intros prev; [reflexivity|]. cbn [shift_sub synth]. rewrite IH. f_equal. ring.
Qed.

Lemma synth_inv r c : forall prev q, synth r c = prev :: q -> c = shift_sub r prev q.
Proof.
  induction c as [|a c IH]; intros prev q E; [discriminate|]. cbn [synth] in E.
  destruct (synth r c) as [|h d] eqn:S.
  - pose proof (synth_length r c) as L. rewrite S in L. destruct c; [|discriminate]. injection E as <- <-. reflexivity.
  - injection E as <- <-. cbn [shift_sub]. f_equal; [ring|]. apply IH. reflexivity.
Qed.

Theorem degree_one_ok (c : list K) alpha : c <> [] ->
  exists q rem, degree_one_quotient c alpha = Some (q, rem) /\ length q = length c /\
    rem = poly_at c alpha /\ forall x, poly_at c x = (x - alpha) * poly_at q x + rem.
Proof.
  intros Hc. unfold degree_one_quotient.
  pose proof (synth_loop alpha c []) as E. cbn [app length Nat.add] in E. rewrite E. cbn [obind].
  pose proof (synth_length alpha c) as L. destruct (synth alpha c) as [|rem q] eqn:S.
  { destruct c; [congruence|discriminate]. }
  cbn [aget nth_error obind skipn]. exists (q ++ [0]), rem. split; [reflexivity|].
  split; [rewrite app_length; cbn in *; lia|].
  assert (P : forall x, poly_at c x = (x - alpha) * poly_at (q ++ [0]) x + rem).
  { intros x. rewrite (synth_poly _ _ x _ _ S), poly_at_app, poly_at_cons, poly_at_nil. ring. }
  split; auto. rewrite (P alpha). ring.
Qed.

Lemma degree_one_nil alpha : degree_one_quotient (K:=K) [] alpha = None.
Proof. reflexivity. Qed.

Lemma times_linear_at r q x : poly_at (times_linear r q) x = (x - r) * poly_at q x :> K.
Proof.
  rewrite (synth_poly r (times_linear r q) x q 0); [ring|]. apply synth_shift.
Qed.

Lemma root_step_ok pre c r : root_step (pre ++ c) (length pre) r =
  match synth r c with h :: d => if feqb h 0 then Some (pre ++ h :: d) else None | [] => None end.
Proof.
  unfold root_step. rewrite app_length.
  replace (length pre + length c - (1 + length pre))%nat with (length c - 1)%nat by lia.
  rewrite (synth_loop r c pre). cbn [obind]. destruct (synth r c) as [|h d] eqn:S.
  - rewrite app_nil_r. unfold aget. rewrite (proj2 (nth_error_None _ _)) by lia. reflexivity.
  - rewrite aget_mid. cbn [obind]. destruct (feqb h 0); reflexivity.
Qed.

Lemma root_loop_ok roots : forall pre c z,
  root_loop (pre ++ c) (length pre) roots = Some z <->
  exists q pre', length pre' = length roots /\ Forall (fun a => a = 0) pre' /\ z = pre ++ pre' ++ q /\ c = fold_right times_linear q roots.
Proof.
  induction roots as [|r roots IH]; intros pre c z; cbn [root_loop fold_right].
  - split.
    + intros [= <-]. exists c, []. cbn. auto.
    + intros (q & pre' & L & _ & -> & ->). destruct pre'; [|discriminate]. reflexivity.
  - rewrite root_step_ok. destruct (synth r c) as [|h d] eqn:S; cbn [obind].
    + split; [discriminate|]. intros (q & pre' & _ & _ & _ & ->). unfold times_linear in S. rewrite synth_shift in S. discriminate.
    + destruct (feqb h 0) eqn:Eh; cbn [obind].
      * apply feqb_eq in Eh. subst h.
        specialize (IH (pre ++ [0]) d z). rewrite app_length in IH. cbn [length] in IH. rewrite Nat.add_1_r, <- app_assoc in IH.
        cbn [app] in IH. rewrite IH. split.
        -- intros (q & pre' & L & F & -> & ->). exists q, (0 :: pre'). cbn [length]. split; [lia|].
           split; [constructor; auto|]. rewrite <- app_assoc. split; [reflexivity|]. apply (synth_inv _ _ _ _ S).
        -- intros (q & pre' & L & F & -> & E). unfold times_linear at 1 in E. rewrite E, synth_shift in S.
           injection S as S. destruct pre' as [|a pre']; [discriminate|]. inversion F; subst.
           exists q, pre'. cbn in L. split; [lia|]. split; auto. rewrite <- app_assoc. split; [reflexivity|auto].
      * split; [discriminate|]. intros (q & pre' & _ & _ & _ & E). unfold times_linear at 1 in E. rewrite E, synth_shift in S.
        injection S as S _. subst h. rewrite (proj2 (@feqb_eq K 0 0) eq_refl) in Eh. discriminate.
Qed.

Lemma fold_times_length roots : forall q : list K, length (fold_right times_linear q roots) = (length roots + length q)%nat.
Proof.
  assert (H : forall r q prev, length (shift_sub (K:=K) r prev q) = S (length q)).
  { intros r q. induction q as [|b q IH]; intros prev; cbn; auto. }
  induction roots as [|r roots IH]; intros q; cbn [fold_right length Nat.add]; auto.
  unfold times_linear at 1. rewrite H, IH. reflexivity.
Qed.

Theorem root_vanishing_ok (c roots out : list K) :
  root_vanishing_quotient c roots = Some out <->
  exists q, out = q ++ repeat 0 (length roots) /\ c = fold_right times_linear q roots.
Proof.
  unfold root_vanishing_quotient. pose proof (root_loop_ok roots [] c) as R. cbn [app length] in R.
  split.
  - destruct (root_loop c 0 roots) as [z|] eqn:E; [|discriminate]. cbn [obind].
    destruct (proj1 (R z) eq_refl) as (q & pre & L & _ & -> & ->).
    rewrite app_length. destruct (Nat.leb_spec (length roots) (length pre + length q)); [|lia]. cbn [guard obind].
    intros [= <-]. exists q. split; auto. rewrite skipn_app, <- L, Nat.sub_diag, skipn_all. reflexivity.
  - intros (q & -> & ->).
    assert (E : root_loop (fold_right times_linear q roots) 0 roots = Some (repeat 0 (length roots) ++ q)).
    { apply R. exists q, (repeat 0 (length roots)). rewrite repeat_length. split; auto. split; [|split; auto].
      apply Forall_forall. intros x Hx. exact (repeat_spec _ _ _ Hx). }
    rewrite E. cbn [obind]. rewrite app_length, repeat_length.
    destruct (Nat.leb_spec (length roots) (length roots + length q)); [|lia]. cbn [guard obind].
    f_equal. f_equal. rewrite skipn_app, repeat_length, Nat.sub_diag.
    rewrite skipn_all2 by (rewrite repeat_length; lia). reflexivity.
Qed.

Lemma fold_times_at roots (q : list K) x :
  poly_at (fold_right times_linear q roots) x = fprod (map (fun r => x - r) roots) * poly_at q x.
Proof.
  induction roots as [|r roots IH]; cbn [fold_right map fprod]; [ring|].
  rewrite times_linear_at, IH. ring.
Qed.

Lemma fpow_sq (x : K) i : fpow (x * x) i = fpow x (2 * i).
Proof.
  induction i as [|i IH]; [reflexivity|]. replace (2 * S i)%nat with (S (S (2 * i))) by lia.
  cbn [fpow]. rewrite IH. ring.
Qed.

Lemma eq_uni_gen point : forall x acc : K,
  fst (fold_left (fun (st : K * K) e => let (eval, x_pow) := st in
         (eval * (x_pow * e + 1 - e), x_pow * x_pow)) point (acc, x)) =
  acc * sumn (2 ^ length point) (fun i => eq_point point i * fpow x i).
Proof.
  induction point as [|e point IH]; intros x acc; cbn [fold_left length].
  - cbn [Nat.pow fst]. rewrite sumn_1, eq_point_nil. cbn. ring.
  - rewrite IH, Nat.pow_succ_r', sumn_double.
    rewrite (sumn_ext _ _ (fun i => eq_point (e :: point) (2 * i) * fpow x (2 * i)) (fun i => (1 - e) * (eq_point point i * fpow (x * x) i)))
      by (intros; rewrite eq_point_even, fpow_sq; ring).
    rewrite (sumn_ext _ _ (fun i => eq_point (e :: point) (2 * i + 1) * fpow x (2 * i + 1)) (fun i => (x * e) * (eq_point point i * fpow (x * x) i))).
    + rewrite !sumn_scale. ring.
    + intros i _. rewrite eq_point_odd, fpow_sq, Nat.add_1_r. cbn [fpow]. ring.
Qed.

Theorem eq_uni_ok (point : list K) x :
  eq_uni_evaluate point x = sumn (2 ^ length point) (fun i => eq_point point i * fpow x i).
Proof. unfold eq_uni_evaluate. rewrite eq_uni_gen. ring. Qed.

End Proofs.
