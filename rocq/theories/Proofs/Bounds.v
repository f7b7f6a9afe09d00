From Coq Require Import List Arith Bool Reals String ZArith Lia Lra.
From Verif Require Import Spec.Shapes Spec.Tensors Spec.RealOps Model.Bounds.
From Verif Require Model.Constants.
Import ListNotations.
Local Open Scope nat_scope.
Local Open Scope R_scope.

Definition within (b : R) (l : list R) : Prop := Forall (fun x => Rabs x <= b) l.

(** *** Lists of reals *)
Lemma sum_app l m : sum (l ++ m) = sum l + sum m.
Proof. unfold sum. induction l; cbn; [lra|]. rewrite IHl. lra. Qed.
Lemma fold_plus l : forall a, fold_left Rplus l a = a + sum l.
Proof. unfold sum. induction l; intros; cbn; [lra|]. rewrite IHl. lra. Qed.
Lemma l1_sum l : l1 l = sum (map Rabs l).
Proof. unfold l1. rewrite fold_plus. lra. Qed.
Lemma l1_nonneg l : 0 <= l1 l.
Proof. rewrite l1_sum. unfold sum. induction l; cbn; [lra|]. pose proof (Rabs_pos a). lra. Qed.
Lemma l1_app l m : l1 (l ++ m) = l1 l + l1 m.
Proof. rewrite !l1_sum, map_app. apply sum_app. Qed.
Lemma fold_max l : forall a, a <= fold_left Rmax l a /\ (forall x, In x l -> x <= fold_left Rmax l a).
Proof.
  induction l as [|y l IH]; intros a; cbn.
  - split; [lra|intros ? []].
  - destruct (IH (Rmax a y)) as [H1 H2]. pose proof (Rmax_l a y). pose proof (Rmax_r a y). split; [lra|].
    intros x [->|Hx]; [lra|auto].
Qed.
Lemma max_list_nonneg l : 0 <= max_list l.
Proof. exact (proj1 (fold_max l 0)). Qed.
Lemma max_list_ge l x : In x l -> x <= max_list l.
Proof. exact (proj2 (fold_max l 0) x). Qed.
Lemma max_abs_nonneg l : 0 <= max_abs l.
Proof. apply max_list_nonneg. Qed.
Lemma max_abs_within l : within (max_abs l) l.
Proof. apply Forall_forall. intros x Hx. apply max_list_ge, in_map, Hx. Qed.
Lemma dot_bound m : 0 <= m -> forall ws xs, within m xs -> Rabs (dot ws xs) <= l1 ws * m.
Proof.
  intros Hm ws. unfold dot, map2. rewrite l1_sum.
  induction ws as [|w ws IH]; intros xs Hx; cbn.
  - rewrite Rabs_R0. lra.
  - destruct xs as [|x xs]; cbn.
    + rewrite Rabs_R0. pose proof (Rabs_pos w). pose proof (l1_nonneg ws) as Hn. rewrite l1_sum in Hn. unfold sum in Hn. nra.
    + inversion Hx as [|? ? Ha Hb]; subst. specialize (IH xs Hb). unfold sum in IH |- *. cbn in IH |- *.
      eapply Rle_trans; [apply Rabs_triang|]. rewrite Rabs_mult. pose proof (Rabs_pos w). nra.
Qed.
Lemma sum_bound m l : within m l -> Rabs (sum l) <= INR (List.length l) * m.
Proof.
  induction 1 as [|x l Hx Hl IH]; [cbn; rewrite Rabs_R0; lra|].
  cbn [sum fold_right List.length]. rewrite S_INR. fold (sum l).
  eapply Rle_trans; [apply Rabs_triang|]. lra.
Qed.
Lemma within_in b l l' : within b l -> Forall (fun x => In x l) l' -> within b l'.
Proof. intros H Hl. eapply Forall_impl; [|exact Hl]. intros x Hx. exact (proj1 (Forall_forall _ _) H x Hx). Qed.
Lemma within_zero b l l' : 0 <= b -> within b l -> Forall (fun x => x = 0 \/ In x l) l' -> within b l'.
Proof.
  intros Hb H Hl. eapply Forall_impl; [|exact Hl]. intros x [->|Hx]; [rewrite Rabs_R0; exact Hb|].
  exact (proj1 (Forall_forall _ _) H x Hx).
Qed.
Lemma mean_bound m l : l <> [] -> within m l -> Rabs (mean l) <= m.
Proof.
  intros Hl H. unfold mean. assert (0 < INR (List.length l)) by (apply lt_0_INR; destruct l; [congruence|cbn; lia]).
  unfold Rdiv. rewrite Rabs_mult, Rabs_inv, (Rabs_right (INR _)) by lra.
  pose proof (sum_bound m l H). apply Rmult_le_reg_r with (INR (List.length l)); [lra|].
  rewrite Rmult_assoc, Rinv_l by lra. lra.
Qed.
Lemma sum_nonneg l : Forall (fun x => 0 <= x) l -> 0 <= sum l.
Proof. induction 1; cbn; [lra|]. fold (sum l). lra. Qed.
Lemma variance_nonneg l : 0 <= variance l.
Proof.
  unfold variance, mean at 1. set (q := map _ l). assert (0 <= sum q).
  { apply sum_nonneg. apply Forall_forall. intros x Hx. apply in_map_iff in Hx. destruct Hx as (y & <- & _). apply pow2_ge_0. }
  unfold Rdiv. destruct l as [|a l']; [cbn; rewrite Rinv_0; lra|].
  assert (0 < INR (List.length q)) by (apply lt_0_INR; subst q; rewrite map_length; cbn; lia).
  apply Rmult_le_pos; [lra|]. apply Rlt_le, Rinv_0_lt_compat. lra.
Qed.
Lemma l1_firstn k l : l1 (firstn k l) <= l1 l.
Proof. rewrite <- (firstn_skipn k l) at 2. rewrite l1_app. pose proof (l1_nonneg (skipn k l)). lra. Qed.
Lemma l1_skipn k l : l1 (skipn k l) <= l1 l.
Proof. rewrite <- (firstn_skipn k l) at 2. rewrite l1_app. pose proof (l1_nonneg (firstn k l)). lra. Qed.

Lemma seq_split a b n : (a + b <= n)%nat -> seq 0 n = (seq 0 a ++ seq a b ++ seq (a + b) (n - a - b))%list.
Proof.
  intros H. replace n with (a + (b + (n - a - b)))%nat at 1 by lia. rewrite !seq_app. reflexivity.
Qed.
Lemma filter_all {A} f (l : list A) : (forall x, In x l -> f x = true) -> filter f l = l.
Proof. induction l; cbn; intros H; [reflexivity|]. rewrite (H a (or_introl eq_refl)), IHl; auto. Qed.
Lemma filter_none {A} f (l : list A) : (forall x, In x l -> f x = false) -> filter f l = [].
Proof. induction l; cbn; intros H; [reflexivity|]. rewrite (H a (or_introl eq_refl)), IHl; auto. Qed.
Lemma strided_eq vals c n q : (c < n)%nat -> List.length vals = (q * n)%nat ->
  strided vals c n = map (fun i => nth (c + i * n) vals 0) (seq 0 q).
Proof.
  intros Hc Hl. unfold strided. f_equal. rewrite Hl.
  assert (Hq : (q <= q * n)%nat) by nia.
  assert (E : seq 0 (q * n) = (seq 0 q ++ seq (0 + q) (q * n - q))%list) by (rewrite <- seq_app; f_equal; lia).
  rewrite E, filter_app.
  rewrite filter_all; [rewrite filter_none; [apply app_nil_r|]|].
  - intros i Hi. apply in_seq in Hi. apply Nat.ltb_ge. nia.
  - intros i Hi. apply in_seq in Hi. apply Nat.ltb_lt. nia.
Qed.
Lemma l1_column vals c n q b k : (c < n)%nat -> List.length vals = (q * n)%nat -> (b * k + k <= q)%nat ->
  l1 (map (fun i => nth ((b * k + i) * n + c) vals 0) (seq 0 k)) <= l1 (strided vals c n).
Proof.
  intros Hc Hl Hb. rewrite (strided_eq vals c n q Hc Hl).
  rewrite (seq_split (b * k) k q Hb), !map_app, !l1_app.
  assert (E : map (fun i => nth ((b * k + i) * n + c) vals 0) (seq 0 k) = map (fun i => nth (c + i * n) vals 0) (seq (b * k) k)).
  { assert (G : forall o k a, map (fun i => nth ((o + i) * n + c) vals 0) (seq a k) = map (fun i => nth (c + i * n) vals 0) (seq (o + a) k)).
    { intros o k0. induction k0 as [|k0 IH]; intros a; cbn; [reflexivity|].
      f_equal; [f_equal; lia|]. rewrite IH. f_equal. f_equal. lia. }
    rewrite (G (b * k)%nat k 0%nat). f_equal. f_equal. lia. }
  rewrite E. pose proof (l1_nonneg (map (fun i => nth (c + i * n) vals 0) (seq 0 (b * k)))).
  pose proof (l1_nonneg (map (fun i => nth (c + i * n) vals 0) (seq (b * k + k) (q - b * k - k)))). lra.
Qed.
Lemma prod_app l m : prod (l ++ m) = (prod l * prod m)%nat.
Proof. unfold prod. induction l; cbn; [lia|]. cbn in IHl. rewrite IHl. lia. Qed.
Lemma map_get_in {A} s (l : list (string * A)) a : map_get s l = Some a -> In (s, a) l.
Proof.
  unfold map_get. induction l as [|[n x] l IH]; cbn; [discriminate|].
  destruct (String.eqb_spec n s) as [->|]; [intros [= ->]; auto|intros H; right; auto].
Qed.
Lemma map_get_some {A} s (l : list (string * A)) : In s (map fst l) -> exists a, map_get s l = Some a.
Proof.
  unfold map_get. induction l as [|[n x] l IH]; cbn; [intros []|].
  destruct (String.eqb_spec n s) as [->|N]; [eauto|intros [H|H]; [congruence|auto]].
Qed.
Lemma map_get_none {A} s (l : list (string * A)) : ~ In s (map fst l) -> map_get s l = None.
Proof.
  unfold map_get. induction l as [|[n x] l IH]; cbn; [reflexivity|].
  destruct (String.eqb_spec n s) as [->|N]; intros H; [destruct H; auto|apply IH; auto].
Qed.
Lemma map_get_app {A} s (l m : list (string * A)) : map_get s (l ++ m) = match map_get s l with Some a => Some a | None => map_get s m end.
Proof. unfold map_get. induction l as [|[n x] l IH]; cbn; [reflexivity|]. destruct (n =? s)%string; auto. Qed.

(** *** Bits *)
Lemma ceil_ge x : x <= IZR (- Int_part (- x)).
Proof. rewrite opp_IZR. pose proof (base_Int_part (- x)). lra. Qed.
Lemma n_bits_hold alpha bound : Rabs (alpha * bound) <= 2 ^ (compute_n_bits alpha bound - 1).
Proof.
  unfold compute_n_bits. set (v := Rabs _). destruct (Rle_dec v 1) as [H|H]; [cbn; lra|].
  assert (Hv : 1 < v) by lra.
  assert (L2 : 0 < ln 2) by (rewrite <- ln_1; apply ln_increasing; lra).
  assert (Lv : 0 < ln v) by (rewrite <- ln_1; apply ln_increasing; lra).
  rewrite Nat.add_sub. unfold ceil_nat. set (z := (- Int_part (- (ln v / ln 2)))%Z).
  pose proof (ceil_ge (ln v / ln 2)) as Hc. fold z in Hc.
  assert (0 < ln v / ln 2) by (apply Rmult_lt_0_compat; [lra|apply Rinv_0_lt_compat; lra]).
  assert (Hz : (0 < z)%Z) by (apply lt_IZR; lra).
  rewrite <- (Rpower_pow _ 2) by lra. rewrite INR_IZR_INZ, Z2Nat.id by lia.
  rewrite <- (exp_ln v) by lra. unfold Rpower.
  assert (ln v <= IZR z * ln 2).
  { apply Rmult_le_reg_r with (/ ln 2); [apply Rinv_0_lt_compat; lra|].
    rewrite Rmult_assoc, Rinv_r by lra. unfold Rdiv in Hc. lra. }
  destruct (Rle_lt_or_eq_dec _ _ H1) as [Hlt|Heq]; [left; apply exp_increasing, Hlt|rewrite Heq; lra].
Qed.
