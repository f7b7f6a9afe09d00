From Coq Require Import List Arith Lia Ring Field Bool.
From Verif Require Import Base.Field Base.Array Spec.Multilinear Model.Polynomials Proofs.Multilinear.
Import ListNotations.

Ltac nb := repeat match goal with
  | |- context [(?a =? ?b)%nat] => destruct (Nat.eqb_spec a b)
  | |- context [(?a <? ?b)%nat] => destruct (Nat.ltb_spec a b)
  | |- context [(?a <=? ?b)%nat] => destruct (Nat.leb_spec a b)
  end; cbn [andb orb negb]; try lia.

Section Proofs.
Variable K : field.
Add Field Kf : (fth K).
Local Open Scope fld_scope.
Implicit Types (f g : nat -> K) (r s xs ys pts rest : list K).

(** ** eq tables *)
Lemma build_eq_step_ok buf N f cur a : arr buf N f -> (2 * cur <= N)%nat ->
  exists buf', build_eq_step a (buf, cur) = Some (buf', (cur * 2)%nat) /\
    arr buf' N (fun k => if (k <? cur)%nat then f k - f k * a
                         else if (k <? 2 * cur)%nat then f (k - cur)%nat * a else f k).
Proof.
  intros Hb HN. unfold build_eq_step.
  destruct (for_seq (fun j b => arr b N (fun k => if (k <? j)%nat then f k - f k * a
        else if (cur <=? k)%nat && (k <? cur + j)%nat then f (k - cur)%nat * a else f k))
     (fun j b => let* e := aget b j in
      let* b1 := aset b (j + cur) (e * a) in
      let* hi := aget b1 (j + cur) in
      let* lo := aget b1 j in
      aset b1 j (lo - hi)) 0 cur buf) as (b' & E & H).
  - apply (arr_ext _ _ _ _ Hb). intros i Hi. nb; reflexivity.
  - intros j b Hj H.
    rewrite (arr_get _ _ _ j H) by lia. cbn [obind].
    destruct (arr_set _ _ _ (j + cur) ((if (j <? j)%nat then f j - f j * a
        else if (cur <=? j)%nat && (j <? cur + j)%nat then f (j - cur)%nat * a else f j) * a) H) as (b1 & E1 & H1); [lia|].
    rewrite E1. cbn [obind]. rewrite (arr_get _ _ _ (j + cur) H1), (arr_get _ _ _ j H1) by lia. cbn [obind].
    destruct (arr_set _ _ _ j (f j - f j * a) H1) as (b2 & E2 & H2); [lia|].
    exists b2. split.
    + rewrite <- E2. f_equal. nb. reflexivity.
    + apply (arr_ext _ _ _ _ H2). intros k Hk. nb; try reflexivity; try (subst; reflexivity).
      * subst k. replace (j + cur - cur)%nat with j by lia. reflexivity.
  - rewrite E. exists b'. split; [reflexivity|]. apply (arr_ext _ _ _ _ H). intros k Hk. nb; reflexivity.
Qed.

Lemma build_eq_loop r pre buf N m g : arr buf N (fun k => if (k <? 2 ^ length pre)%nat then m * eq_point pre k else g k) ->
  (2 ^ (length pre + length r) <= N)%nat ->
  exists buf' c, for_each r build_eq_step (buf, (2 ^ length pre)%nat) = Some (buf', c) /\
    arr buf' N (fun k => if (k <? 2 ^ (length pre + length r))%nat then m * eq_point (pre ++ r) k else g k).
Proof.
  revert pre buf. induction r as [|a r IH]; intros pre buf H HN; cbn [for_each length].
  - exists buf, (2 ^ length pre)%nat. split; auto. rewrite Nat.add_0_r, app_nil_r. auto.
  - assert (L : (2 ^ S (length pre) <= 2 ^ (length pre + length (a :: r)))%nat)
      by (apply Nat.pow_le_mono_r; cbn [length]; lia).
    rewrite Nat.pow_succ_r' in L.
    destruct (build_eq_step_ok buf N _ (2 ^ length pre) a H) as (b1 & E1 & H1); [lia|].
    rewrite E1. cbn [obind].
    specialize (IH (pre ++ [a]) b1). rewrite app_length in IH. cbn [length] in IH.
    rewrite Nat.add_1_r, Nat.pow_succ_r', (Nat.mul_comm 2) in IH.
    destruct IH as (b2 & c & E2 & H2).
    + apply (arr_ext _ _ _ _ H1). intros k Hk. nb; try reflexivity.
      * rewrite eq_point_low by auto. ring.
      * replace k with (2 ^ length pre + (k - 2 ^ length pre))%nat at 2 by lia.
        rewrite eq_point_high by lia. ring.
    + cbn [length] in HN. replace (S (length pre) + length r)%nat with (length pre + S (length r))%nat by lia. auto.
    + exists b2, c. split; auto.
      replace (length pre + S (length r))%nat with (S (length pre) + length r)%nat by lia.
      rewrite <- app_assoc in H2. exact H2.
Qed.

Theorem build_eq_with_buf_ok r m buf N g : arr buf N g -> (2 ^ length r <= N)%nat ->
  exists buf', build_eq_x_r_with_buf r m buf = Some buf' /\
    arr buf' N (fun k => if (k <? 2 ^ length r)%nat then m * eq_point r k else g k).
Proof.
  intros H HN. unfold build_eq_x_r_with_buf.
  assert (Hnz : (2 ^ length r <> 0)%nat) by apply pow2_nz.
  destruct (arr_set _ _ _ 0%nat m H) as (b0 & E0 & H0); [lia|]. rewrite E0. cbn [obind].
  destruct (build_eq_loop r [] b0 N m g) as (b1 & c & E1 & H1).
  - apply (arr_ext _ _ _ _ H0). intros k Hk. cbn [length Nat.pow]. nb; try reflexivity.
    rewrite eq_point_nil. ring.
  - exact HN.
  - cbn [length Nat.pow] in E1. rewrite E1. cbn. exists b1. split; auto.
Qed.

Lemma pow2_split n k : (k <= n)%nat -> (2 ^ n = 2 ^ k * 2 ^ (n - k))%nat.
Proof. intros H. rewrite <- Nat.pow_add_r. f_equal. lia. Qed.

Theorem eq_eval_at_ok r m e s1 s2 Ne N1 N2 ge g1 g2 :
  arr e Ne ge -> arr s1 N1 g1 -> arr s2 N2 g2 ->
  (2 ^ (length r / 2) <= N1)%nat -> (2 ^ (length r - length r / 2) <= N2)%nat ->
  exists e' s1' s2', eq_eval_at r m e s1 s2 = Some (e', s1', s2') /\
    arr e' Ne (fun k => if (k <? 2 ^ length r)%nat then m * eq_point r k else ge k) /\
    length s1' = N1 /\ length s2' = N2.
Proof.
  intros He H1 H2 L1 L2. unfold eq_eval_at.
  set (h := (length r / 2)%nat) in *.
  assert (Hh : (h <= length r)%nat) by (unfold h; apply Nat.div_le_upper_bound; lia).
  assert (F1 : length (firstn h r) = h) by (apply firstn_length_le; auto).
  assert (F2 : length (skipn h r) = (length r - h)%nat) by apply skipn_length.
  destruct (build_eq_with_buf_ok (firstn h r) m s1 N1 g1 H1) as (b1 & E1 & A1); [rewrite F1; auto|].
  destruct (build_eq_with_buf_ok (skipn h r) 1 s2 N2 g2 H2) as (b2 & E2 & A2); [rewrite F2; auto|].
  rewrite E1. cbn [obind]. rewrite E2. cbn [obind].
  rewrite F1 in A1. rewrite F2 in A2.
  assert (Ph : (2 ^ h <> 0)%nat) by apply pow2_nz.
  pose proof (pow2_split (length r) h Hh) as Sp.
  destruct He as (Le & He).
  destruct (for_seq (fun j b => arr b Ne (fun k => if (k <? j)%nat then m * eq_point r k else ge k))
    (fun i b => let* x := aget b1 (Nat.modulo i (2 ^ h)) in
      let* y := aget b2 (Nat.div i (2 ^ h)) in aset b i (x * y)) 0 (Nat.min (2 ^ length r) (length e)) e) as (e' & E & A).
  - split; auto.
  - intros j b Hj A.
    assert (B1 : (j mod 2 ^ h < 2 ^ h)%nat) by (apply Nat.mod_upper_bound; auto).
    assert (B2 : (j / 2 ^ h < 2 ^ (length r - h))%nat) by (apply Nat.div_lt_upper_bound; lia).
    rewrite (arr_get _ _ _ _ A1), (arr_get _ _ _ _ A2) by lia. cbn [obind].
    destruct (Nat.ltb_spec (j mod 2 ^ h) (2 ^ h)); [|lia].
    destruct (Nat.ltb_spec (j / 2 ^ h) (2 ^ (length r - h))); [|lia].
    destruct (arr_set _ _ _ j (m * eq_point (firstn h r) (j mod 2 ^ h) * (1 * eq_point (skipn h r) (j / 2 ^ h))) A)
      as (b' & E' & A'); [lia|].
    exists b'. split; auto. apply (arr_ext _ _ _ _ A'). intros k Hk. nb; try reflexivity.
    subst k. transitivity (m * eq_point (firstn h r ++ skipn h r) j); [|now rewrite firstn_skipn].
    rewrite eq_point_app, F1.
    pose proof (eq_point_mod K (firstn h r) j) as Em. rewrite F1 in Em. rewrite Em. ring.
  - rewrite E. cbn [obind]. exists e', b1, b2. split; auto. split; [|split; [apply A1|apply A2]].
    apply (arr_ext _ _ _ _ A). intros k Hk. nb; reflexivity.
Qed.

Lemma arr_flat_map2 {A B} (l : list A) n (f : nat -> A) (g h : A -> B) : arr l n f ->
  arr (flat_map (fun b => [g b; h b]) l) (2 * n) (fun i => if Nat.even i then g (f (i / 2)%nat) else h (f (i / 2)%nat)).
Proof.
  revert n f. induction l as [|a l IH]; intros n f (L & H); cbn in L; subst n; cbn [flat_map app].
  - split; auto. cbn. intros; lia.
  - assert (H' : arr l (length l) (fun i => f (S i))) by (split; auto; intros i Hi; apply (H (S i)); lia).
    specialize (IH _ _ H'). destruct IH as (L2 & N2).
    assert (E0 : f 0%nat = a) by (specialize (H 0%nat ltac:(cbn; lia)); cbn in H; congruence).
    split; [cbn [length app]; rewrite L2; lia|].
    intros [|[|i]] Hi; cbn [nth_error app].
    + cbn. now rewrite E0.
    + cbn. now rewrite E0.
    + rewrite N2 by lia. cbn [Nat.even].
      replace (S (S i) / 2)%nat with (S (i / 2)); auto.
      replace (S (S i)) with (i + 1 * 2)%nat by lia. rewrite Nat.div_add by lia. lia.
Qed.

Lemma even_odd i : Nat.even i = negb (Nat.odd i).
Proof. symmetry. apply Nat.negb_odd. Qed.

Theorem build_eq_ok r : arr (build_eq_x_r r) (2 ^ length r) (eq_point r).
Proof.
  induction r as [|a r IH].
  - split; auto. cbn [length Nat.pow]. intros i Hi. replace i with 0%nat by lia. reflexivity.
  - destruct r as [|b r'].
    + split; auto. cbn [length Nat.pow Nat.mul Nat.add]. intros [|[|i]] Hi; try lia; cbn [nth_error build_eq_x_r];
        rewrite eq_point_cons, eq_point_nil; cbn [Nat.odd Nat.even negb]; f_equal; ring.
    + remember (b :: r') as t.
      assert (E : build_eq_x_r (a :: t) = flat_map (fun bi => [bi - a * bi; a * bi]) (build_eq_x_r t)) by (rewrite Heqt; reflexivity).
      rewrite E. cbn [length]. rewrite Nat.pow_succ_r'.
      apply (arr_ext _ _ _ _ (arr_flat_map2 _ _ _ (fun bi => bi - a * bi) (fun bi => a * bi) IH)).
      intros i Hi. rewrite eq_point_cons, even_odd. destruct (Nat.odd i); cbn [negb]; ring.
Qed.

(** Jolt's in-place doubling. *)
Lemma jolt_step_ok e N f n a : arr e N f -> (2 * n <= N)%nat ->
  exists e', jolt_step a (e, n) = Some (e', (n * 2)%nat) /\
    arr e' N (fun k => if (k <? 2 * n)%nat then
        (if Nat.even k then f (k / 2)%nat - f (k / 2)%nat * a else f (k / 2)%nat * a) else f k).
Proof.
  intros He HN. unfold jolt_step.
  assert (Dn : (n * 2 / 2 = n)%nat) by (apply Nat.div_mul; lia).
  destruct (for_list (fun j e => arr e N (fun k => if (k <? 2 * n)%nat && (2 * n - 2 * j <=? k)%nat then
        (if Nat.even k then f (k / 2)%nat - f (k / 2)%nat * a else f (k / 2)%nat * a) else f k))
    (fun i e => let* scalar := aget e (i / 2)%nat in
      let* e1 := aset e i (scalar * a) in
      let* ei := aget e1 i in
      aset e1 (i - 1) (scalar - ei)) (rev_odds (n * 2)) e) as (e' & E & H).
  - apply (arr_ext _ _ _ _ He). intros k Hk. nb; reflexivity.
  - intros j i e1 Hj H.
    assert (Lj : (j < n)%nat).
    { assert (nth_error (rev_odds (n * 2)) j <> None) by congruence. apply nth_error_Some in H0.
      unfold rev_odds in H0. rewrite map_length, seq_length, Dn in H0. auto. }
    assert (Ei : i = (2 * (n - 1 - j) + 1)%nat).
    { unfold rev_odds in Hj. rewrite nth_error_map, Dn, (nth_error_nth' _ 0%nat), seq_nth in Hj
        by (rewrite ?seq_length; auto). cbn in Hj. injection Hj as <-. lia. }
    set (q := (n - 1 - j)%nat) in *.
    assert (Hq : (i / 2 = q)%nat) by (subst i; rewrite Nat.mul_comm, Nat.div_add_l by lia; cbn; lia).
    assert (Hi1 : (i - 1 = 2 * q)%nat) by lia.
    rewrite Hq, (arr_get _ _ _ _ H) by lia. cbn [obind].
    replace (if (q <? 2 * n)%nat && (2 * n - 2 * j <=? q)%nat then _ else f q) with (f q) by (nb; reflexivity).
    destruct (arr_set _ _ _ i (f q * a) H) as (e2 & E2 & H2); [lia|]. rewrite E2. cbn [obind].
    rewrite (arr_get _ _ _ i H2), Nat.eqb_refl by lia. cbn [obind].
    destruct (arr_set _ _ _ (i - 1) (f q - f q * a) H2) as (e3 & E3 & H3); [lia|].
    exists e3. split; auto. apply (arr_ext _ _ _ _ H3). intros k Hk.
    destruct (Nat.eqb_spec k (i - 1)) as [->|N1].
    { rewrite Hi1. replace (2 * q / 2)%nat with q by (rewrite Nat.mul_comm, Nat.div_mul; lia).
      rewrite Nat.even_mul. cbn [Nat.even orb]. nb. reflexivity. }
    destruct (Nat.eqb_spec k i) as [->|N2].
    { rewrite Hq. subst i. rewrite Nat.even_add, Nat.even_mul. cbn [Nat.even orb eqb]. nb. reflexivity. }
    nb; reflexivity.
  - rewrite E. cbn [obind]. exists e'. split; auto.
    apply (arr_ext _ _ _ _ H). intros k Hk. unfold rev_odds. rewrite map_length, seq_length, Dn. nb; reflexivity.
Qed.

Lemma jolt_loop rr r0 e N m : arr e N (fun k => if (k <? 2 ^ length r0)%nat then m * eq_point r0 k else m) ->
  (2 ^ (length r0 + length rr) <= N)%nat ->
  exists e' c, for_each rr jolt_step (e, (2 ^ length r0)%nat) = Some (e', c) /\
    arr e' N (fun k => if (k <? 2 ^ (length r0 + length rr))%nat then m * eq_point (rev rr ++ r0) k else m).
Proof.
  revert r0 e. induction rr as [|a rr IH]; intros r0 e H HN; cbn [for_each length].
  - exists e, (2 ^ length r0)%nat. split; auto. rewrite Nat.add_0_r. auto.
  - assert (L : (2 ^ S (length r0) <= 2 ^ (length r0 + length (a :: rr)))%nat)
      by (apply Nat.pow_le_mono_r; cbn [length]; lia).
    rewrite Nat.pow_succ_r' in L.
    destruct (jolt_step_ok e N _ (2 ^ length r0) a H) as (e1 & E1 & H1); [lia|].
    rewrite E1. cbn [obind]. specialize (IH (a :: r0) e1). cbn [length] in IH.
    rewrite Nat.pow_succ_r', (Nat.mul_comm 2) in IH.
    destruct IH as (e2 & c & E2 & H2).
    + apply (arr_ext _ _ _ _ H1). intros k Hk. rewrite (Nat.mul_comm 2).
      destruct (Nat.ltb_spec k (2 ^ length r0 * 2)) as [Lk|Lk].
      * assert (k / 2 < 2 ^ length r0)%nat by (apply Nat.div_lt_upper_bound; lia).
        destruct (Nat.ltb_spec (k / 2) (2 ^ length r0)); [|lia].
        rewrite eq_point_cons, even_odd. destruct (Nat.odd k); cbn [negb]; ring.
      * destruct (Nat.ltb_spec k (2 ^ length r0)); [lia|reflexivity].
    + cbn [length] in HN. replace (S (length r0) + length rr)%nat with (length r0 + S (length rr))%nat by lia. auto.
    + exists e2, c. split; auto. cbn [rev]. rewrite <- app_assoc. cbn [app].
      replace (length r0 + S (length rr))%nat with (S (length r0) + length rr)%nat by lia. exact H2.
Qed.

Theorem scaled_jolt_ok r m : exists e, scaled_evals_jolt r m = Some e /\ arr e (2 ^ length r) (fun k => m * eq_point r k).
Proof.
  unfold scaled_evals_jolt.
  destruct (jolt_loop (rev r) [] (repeat m (2 ^ length r)) (2 ^ length r) m) as (e & c & E & H).
  - split; [apply repeat_length|]. intros i Hi. rewrite (nth_error_nth' _ m) by (now rewrite repeat_length).
    rewrite nth_repeat. f_equal. cbn [length Nat.pow]. destruct (Nat.ltb_spec i 1); auto. rewrite eq_point_nil. ring.
  - cbn [length]. rewrite rev_length. auto.
  - cbn [length Nat.pow] in E. rewrite E. exists e. split; auto. cbn [length] in H.
    rewrite rev_length, rev_involutive, app_nil_r in H. apply (arr_ext _ _ _ _ H). intros k Hk.
    destruct (Nat.ltb_spec k (2 ^ (0 + length r))); [reflexivity|cbn in *; lia].
Qed.

Lemma ith_loop_ok r i acc : ith_loop r i acc = acc * eq_point r i.
Proof.
  revert i acc. induction r as [|a r IH]; intros i acc; cbn [ith_loop].
  - rewrite eq_point_nil. ring.
  - rewrite IH, eq_point_cons, even_odd, Nat.div2_div. destruct (Nat.odd i); cbn [negb]; ring.
Qed.

Theorem ith_eq_ok r i : ith_eq_vec_elem r i = if (i <? 2 ^ length r)%nat then Some (eq_point r i) else None.
Proof.
  unfold ith_eq_vec_elem, guard. destruct (i <? 2 ^ length r)%nat; auto. cbn. rewrite ith_loop_ok. f_equal. ring.
Qed.

Lemma eq_vec_acc l a : fold_left (fun acc xy => acc * eq1 (fst xy) (snd xy)) l a =
  a * fold_left (fun acc xy => acc * eq1 (fst xy) (snd xy)) l (1 : K).
Proof.
  revert a. induction l as [|x l IH]; intros a; cbn; [ring|].
  rewrite IH, (IH (1 * _)). ring.
Qed.

Lemma eq_vec_cons x y xs ys : eq_vec (x :: xs) (y :: ys) = eq1 x y * eq_vec xs ys.
Proof. unfold eq_vec. cbn. rewrite eq_vec_acc. ring. Qed.

Theorem eq_vec_ok xs ys : length xs = length ys -> eq_vec xs ys = mle (eq_point xs) ys.
Proof.
  revert ys. induction xs as [|x xs IH]; intros [|y ys] L; try discriminate.
  - rewrite mle_nil. reflexivity.
  - injection L as L. rewrite eq_vec_cons, mle_cons, (IH ys L).
    rewrite (mle_ext _ (fun i => eq_point (x :: xs) (2 * i)) (fun i => (1 - x) * eq_point xs i)) by (intros; apply eq_point_even).
    rewrite (mle_ext _ (fun i => eq_point (x :: xs) (2 * i + 1)) (fun i => x * eq_point xs i)) by (intros; apply eq_point_odd).
    rewrite !mle_scale. unfold eq1. ring.
Qed.

Lemma eq_vec_prod xs ys : length xs = length ys ->
  eq_vec xs ys = fprod (map (fun xy => fst xy * snd xy + (1 - fst xy) * (1 - snd xy)) (combine xs ys)).
Proof.
  revert ys. induction xs as [|x xs IH]; intros [|y ys] L; try discriminate; auto.
  injection L as L. rewrite eq_vec_cons, (IH ys L). cbn. unfold eq1. ring.
Qed.

(** ** Multilinear evaluation *)
Lemma arr_combine {A B} (l : list A) (m : list B) n (f : nat -> A) (g : nat -> B) : arr l n f -> arr m n g ->
  arr (combine l m) n (fun i => (f i, g i)).
Proof.
  intros (L & H) (L' & H'). split; [rewrite combine_length; lia|].
  intros i Hi.
  destruct l as [|a l0]; [cbn in *; lia|]. destruct m as [|b m0]; [cbn in *; lia|].
  rewrite (nth_error_nth' _ (a, b)) by (rewrite combine_length; lia).
  rewrite combine_nth by congruence. f_equal.
  pose proof (H i Hi) as E1. pose proof (H' i Hi) as E2.
  rewrite (nth_error_nth' _ a) in E1 by lia. rewrite (nth_error_nth' _ b) in E2 by lia. congruence.
Qed.

Lemma arr_map {A B} (l : list A) n (f : nat -> A) (h : A -> B) : arr l n f -> arr (map h l) n (fun i => h (f i)).
Proof.
  intros (L & H). split; [now rewrite map_length|]. intros i Hi. rewrite nth_error_map, H by auto. reflexivity.
Qed.

Lemma fix_top_ok c n f a : arr c (2 * n) f ->
  arr (fix_top_variable c a) n (fun i => f i + a * (f (n + i)%nat - f i)).
Proof.
  intros H. unfold fix_top_variable. destruct H as (L & H). rewrite L.
  replace (2 * n / 2)%nat with n by (rewrite Nat.mul_comm, Nat.div_mul; lia).
  assert (H1 : arr (firstn n c) n f) by (apply arr_firstn with (2 * n)%nat; [split; auto|lia]).
  assert (H2 : arr (skipn n c) n (fun i => f (n + i)%nat)).
  { replace n with (2 * n - n)%nat at 2 by lia. apply arr_skipn; [split; auto|lia]. }
  exact (arr_map _ _ _ (fun ab => fst ab + a * (snd ab - fst ab)) (arr_combine _ _ _ _ _ H1 H2)).
Qed.

(** Fixing the top variable: the remaining polynomial at [r] is the original
    one at [r ++ [a]]. *)
Theorem fix_top_mle c n f a : arr c (2 ^ S n) f ->
  exists g, arr (fix_top_variable c a) (2 ^ n) g /\ forall r, length r = n -> mle g r = mle f (r ++ [a]).
Proof.
  rewrite Nat.pow_succ_r'. intros H. eexists. split; [apply fix_top_ok, H|].
  intros r Hr. rewrite mle_snoc, Hr.
  rewrite (mle_ext _ _ (fun i => (1 - a) * f i + a * f (2 ^ n + i)%nat)) by (intros; ring).
  rewrite mle_plus, !mle_scale. reflexivity.
Qed.

Lemma fix_tops_mle pts : forall c n f, arr c (2 ^ (length pts + n)) f ->
  exists g, arr (fold_left fix_top_variable pts c) (2 ^ n) g /\
    forall r, length r = n -> mle g r = mle f (r ++ rev pts).
Proof.
  induction pts as [|a pts IH]; intros c n f H; cbn [fold_left length rev] in *.
  - exists f. split; auto. intros. now rewrite app_nil_r.
  - destruct (fix_top_mle c (length pts + n) f a H) as (g & H1 & E1).
    destruct (IH _ n g H1) as (g' & H2 & E2). exists g'. split; auto.
    intros r Hr. rewrite E2 by auto. rewrite E1 by (rewrite app_length, rev_length; lia).
    now rewrite <- app_assoc.
Qed.

Theorem eval_reverse_ok c f pts : arr c (2 ^ length pts) f ->
  eval_reverse_order c pts = Some (mle f (rev pts)).
Proof.
  intros H. rewrite <- (Nat.add_0_r (length pts)) in H.
  destruct (fix_tops_mle pts c 0 f H) as (g & H1 & E). unfold eval_reverse_order.
  rewrite (arr_get _ _ _ 0%nat H1) by (cbn; lia). specialize (E [] eq_refl). cbn [app] in E.
  rewrite <- E, mle_nil. reflexivity.
Qed.

Theorem fix_variables_ok c f pts n : arr c (2 ^ (n + length pts)) f ->
  exists g, arr (fix_variables c pts) (2 ^ n) g /\ forall r, length r = n -> mle g r = mle f (r ++ pts).
Proof.
  intros H. unfold fix_variables.
  destruct (fix_tops_mle (rev pts) c n f) as (g & H1 & E).
  - rewrite rev_length, Nat.add_comm. auto.
  - rewrite rev_involutive in E. exists g. auto.
Qed.

Lemma log2_up_pow n : Nat.log2_up (2 ^ n) = n.
Proof. apply Nat.log2_up_pow2. lia. Qed.

Lemma sum_combine l m n f g : arr l n f -> arr m n g ->
  fold_left fadd (map (fun cc => fst cc * snd cc) (combine l m)) (0 : K) = sumn n (fun i => f i * g i).
Proof.
  intros Hl Hm. pose proof (arr_map _ _ _ (fun cc => fst cc * snd cc) (arr_combine _ _ _ _ _ Hl Hm)) as H.
  rewrite (arr_list _ _ _ H), sumn_fold. cbn. ring.
Qed.

Theorem evaluate_jolt_ok c f r : arr c (2 ^ length r) f -> evaluate_jolt c r = Some (mle f r).
Proof.
  intros H. unfold evaluate_jolt. destruct H as (L & H). rewrite L, log2_up_pow, Nat.eqb_refl. cbn [guard obind].
  unfold evals_jolt. destruct (scaled_jolt_ok r 1) as (e & E & A). rewrite E. cbn [obind].
  rewrite (proj1 A), Nat.eqb_refl. cbn [guard obind]. f_equal.
  rewrite (sum_combine c e (2 ^ length r) f (fun k => 1 * eq_point r k)); auto; [|split; auto].
  unfold mle. apply sumn_ext. intros. ring.
Qed.

(** Halving loop of evaluate_with_buffer. *)
Lemma halve_ok s N f n a : arr s N f -> (2 * n <= N)%nat ->
  exists s', for_in (seq 0 n) (fun i s => let* l := aget s (i * 2) in
            let* h := aget s (i * 2 + 1) in aset s i (l + (h - l) * a)) s = Some s' /\
    arr s' N (fun k => if (k <? n)%nat then f (2 * k)%nat + (f (2 * k + 1)%nat - f (2 * k)%nat) * a else f k).
Proof.
  intros Hs HN.
  destruct (for_seq (fun j s => arr s N (fun k => if (k <? j)%nat then f (2 * k)%nat + (f (2 * k + 1)%nat - f (2 * k)%nat) * a else f k))
    (fun i s => let* l := aget s (i * 2) in
            let* h := aget s (i * 2 + 1) in aset s i (l + (h - l) * a)) 0 n s) as (s' & E & H).
  - apply (arr_ext _ _ _ _ Hs). intros k Hk. nb; reflexivity.
  - intros j t Hj H. rewrite !(arr_get _ _ _ _ H) by lia. cbn [obind].
    destruct (Nat.ltb_spec (j * 2) j); [lia|]. destruct (Nat.ltb_spec (j * 2 + 1) j); [lia|].
    destruct (arr_set _ _ _ j (f (j * 2)%nat + (f (j * 2 + 1)%nat - f (j * 2)%nat) * a) H) as (t' & E & H'); [lia|].
    exists t'. split; auto. apply (arr_ext _ _ _ _ H'). intros k Hk. nb; try reflexivity.
    subst k. now rewrite (Nat.mul_comm j 2).
  - exists s'. split; auto.
Qed.

Lemma halves_ok rest : forall s N f, arr s N f -> (2 ^ length rest <= N)%nat ->
  exists s' c, for_each rest (fun (r : K) (st : list K * nat) =>
        let (s, cur) := st in
        let* s' := for_in (seq 0 cur) (fun i s =>
            let* l := aget s (i * 2) in
            let* h := aget s (i * 2 + 1) in
            aset s i (l + (h - l) * r)) s in
        Some (s', (cur / 2)%nat)) (s, (2 ^ length rest / 2)%nat) = Some (s', c) /\
    exists g, arr s' N g /\ g 0%nat = mle f rest.
Proof.
  induction rest as [|a rest IH]; intros s N f Hs HN; cbn [for_each].
  - exists s, (2 ^ 0 / 2)%nat. split; auto. exists f. split; auto. now rewrite mle_nil.
  - cbn [length] in *. rewrite Nat.pow_succ_r' in *.
    replace (2 * 2 ^ length rest / 2)%nat with (2 ^ length rest)%nat by (rewrite Nat.mul_comm, Nat.div_mul; lia).
    destruct (halve_ok s N f (2 ^ length rest) a Hs HN) as (s1 & E1 & H1). rewrite E1. cbn [obind].
    destruct (IH s1 N _ H1) as (s2 & c & E2 & g & H2 & Eg); [lia|].
    exists s2, c. split; auto. exists g. split; auto. rewrite Eg, mle_cons.
    rewrite (mle_ext _ _ (fun i => (1 - a) * f (2 * i)%nat + a * f (2 * i + 1)%nat)).
    + rewrite mle_plus, !mle_scale. reflexivity.
    + intros i Hi. destruct (Nat.ltb_spec i (2 ^ length rest)); [ring|lia].
Qed.

Theorem evaluate_with_buffer_ok c f r scratch : arr c (2 ^ length r) f -> (2 ^ length r <= length scratch)%nat ->
  evaluate_with_buffer c r scratch = Some (mle f r).
Proof.
  intros H HS. pose proof H as (L & _). unfold evaluate_with_buffer.
  rewrite L, Nat.eqb_refl. cbn [guard obind]. rewrite (proj2 (Nat.leb_le _ _) HS). cbn [guard obind].
  destruct r as [|p0 rest].
  - rewrite (arr_get _ _ _ 0%nat H) by (cbn; lia). now rewrite mle_nil.
  - cbn [length] in *. rewrite Nat.pow_succ_r' in *.
    replace (2 * 2 ^ length rest / 2)%nat with (2 ^ length rest)%nat by (rewrite Nat.mul_comm, Nat.div_mul; lia).
    replace (2 * 2 ^ length rest / 4)%nat with (2 ^ length rest / 2)%nat
      by (replace 4%nat with (2 * 2)%nat by lia; rewrite Nat.div_mul_cancel_l; lia).
    pose proof (arr_self scratch (0 : K)) as HA.
    set (N := length scratch) in *. set (fs := fun i => nth i scratch (0 : K)) in *.
    destruct (for_seq (fun j s => arr s N (fun k => if (k <? j)%nat then p0 * (f (2 * k + 1)%nat - f (2 * k)%nat) + f (2 * k)%nat else fs k))
      (fun i s => let* h := aget c (i * 2 + 1) in let* l := aget c (i * 2) in aset s i (p0 * (h - l) + l)) 0 (2 ^ length rest) scratch)
      as (s1 & E1 & H1).
    + apply (arr_ext _ _ _ _ HA). intros k Hk. nb; reflexivity.
    + intros j t Hj Ht. rewrite !(arr_get _ _ _ _ H) by lia. cbn [obind].
      destruct (arr_set _ _ _ j (p0 * (f (j * 2 + 1)%nat - f (j * 2)%nat) + f (j * 2)%nat) Ht) as (t' & E & H'); [lia|].
      exists t'. split; auto. apply (arr_ext _ _ _ _ H'). intros k Hk. nb; try reflexivity.
      subst k. now rewrite (Nat.mul_comm j 2).
    + rewrite E1. cbn [obind]. destruct (halves_ok rest s1 N _ H1) as (s2 & cc & E2 & g & H2 & Eg); [lia|].
      rewrite E2. cbn [obind fst]. rewrite (arr_get _ _ _ 0%nat H2) by (pose proof (pow2_nz (length rest)); lia).
      f_equal. rewrite Eg, mle_cons.
      rewrite (mle_ext _ _ (fun i => (1 - p0) * f (2 * i)%nat + p0 * f (2 * i + 1)%nat)).
      * rewrite mle_plus, !mle_scale. reflexivity.
      * intros i Hi. destruct (Nat.ltb_spec i (0 + 2 ^ length rest)); [ring|lia].
Qed.

End Proofs.
