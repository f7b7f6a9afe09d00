From Coq Require Import List Arith Bool Reals String ZArith Lia Lra.
From Verif Require Import Spec.Shapes Spec.Tensors Spec.RealOps Model.Bounds Proofs.Bounds Proofs.Bounds2.
Import ListNotations.
Local Open Scope nat_scope.
Local Open Scope R_scope.

Section Layer.
Variables (alpha : R) (shapes : string -> option (list nat)) (env : valuation) (l : layer) (bounds : list (string * R)).
Let n := body l.
Let m i := input_bound bounds l i.
Hypothesis Hm0 : forall i, 0 <= m i.
Hypothesis Hm : forall i, within (m i) (values env n i).
Hypothesis Hw : forall s w, map_get s (weights l) = Some w -> env s = Some w.
Hypothesis Hwf : forall s t, env s = Some t -> well_formed t.
(** operands other than constants have a bound *)
Hypothesis Hknown : forall i s t, nth_error (inputs n) i = Some s -> env s = Some t -> map_get s (weights l) = None ->
  exists b, map_get s bounds = Some b.

Lemma dynamic_bound i s t : nth_error (inputs n) i = Some s -> env s = Some t -> map_get s (weights l) = None ->
  m i = match map_get s bounds with Some b => b | None => 1 end.
Proof.
  intros E Et Ew. destruct (Hknown i s t E Et Ew) as [b Hb]. unfold m, input_bound. fold n. rewrite E, Hb. reflexivity.
Qed.
Lemma matmul_bound j b v : kind n = MatMul -> analysable alpha shapes env n (weights l) ->
  layer_bound shapes l bounds alpha = Some b -> entry env n j v -> Rabs v <= b.
Proof.
  intros K A H He. unfold analysable in A. rewrite K in A. unfold entry in He. rewrite K in He.
  destruct He as (a & bt & r & mm & c & Ea & Eb & Da & Db & Ek & Hr & Hc & Hmm & ->).
  destruct A as [A1 A2].
  pose proof (arg_wf env l Hwf _ _ Ea) as Wa. pose proof (arg_wf env l Hwf _ _ Eb) as Wb.
  assert (Hx0 : within (m 0%nat) (row a r)).
  { eapply within_in; [apply Hm|]. apply Forall_forall. intros x Hx. unfold values. rewrite Ea. eapply row_in, Hx. }
  assert (Hx1 : within (m 1%nat) (column bt mm c)).
  { eapply within_in; [apply Hm|]. apply Forall_forall. intros x Hx. unfold values. rewrite Eb. eapply column_in; eassumption. }
  pose proof dynamic_bound as DB. revert DB.
  unfold arg in Ea, Eb. destruct (inputs n) as [|s0 [|s1 rest]] eqn:Ei; intros DB; cbn [nth_error] in Ea, Eb; try discriminate.
  unfold layer_bound in H. fold n in H. destruct (compute_layer_bound l bounds alpha) as [cb|] eqn:Ecb; [|discriminate].
  injection H as <-. rewrite K, Ei.
  unfold compute_layer_bound in Ecb. fold n in Ecb. rewrite K in Ecb.
  unfold weight_at in Ecb. fold n in Ecb. rewrite Ei in Ecb. cbn [nth_error] in Ecb.
  cbn [nth_error] in A1, A2.
  destruct (map_get s1 (weights l)) as [w1|] eqn:E1.
  - assert (w1 = bt) by (apply Hw in E1; congruence). subst w1.
    replace (List.length (flat bt) =? 0)%nat with false in Ecb by (symmetry; apply Nat.eqb_neq; lia).
    assert (G : Rabs (dot (row a r) (column bt mm c)) <= cb).
    { injection Ecb as <-. rewrite dot_comm. eapply Rle_trans; [apply dot_bound; [apply Hm0|exact Hx0]|].
      apply Rmult_le_compat_r; [apply Hm0|]. apply right_const_bound; assumption. }
    destruct (map_get s0 (weights l)); exact G.
  - destruct (map_get s0 (weights l)) as [w0|] eqn:E0.
    + assert (w0 = a) by (apply Hw in E0; congruence). subst w0.
      replace (List.length (flat a) =? 0)%nat with false in Ecb by (symmetry; apply Nat.eqb_neq; lia).
      injection Ecb as <-. eapply Rle_trans; [apply dot_bound; [apply Hm0|exact Hx1]|].
      apply Rmult_le_compat_r; [apply Hm0|]. apply left_const_bound; try assumption.
      destruct (A1 _ _ eq_refl (map_get_in _ _ _ E0)) as [C|C]; [|exact C].
      exfalso. destruct C as (s & Es & Hin); [unfold arg; rewrite Ei; cbn; congruence|].
      cbn in Es. rewrite Ei in Es. injection Es as <-. destruct (map_get_some _ _ Hin). congruence.
    + rewrite <- (DB 0%nat s0 a), <- (DB 1%nat s1 bt) by auto.
      assert (Esh : exists d, shapes s0 = Some d /\ last d 1%nat = last (dims a) 1%nat).
      { destruct A2 as [Hin|A2]; [exfalso; destruct (map_get_some _ _ Hin); congruence|]. rewrite Ea in A2.
        destruct (shapes s0) as [d|]; [|discriminate]. cbn in A2. exists d. split; congruence. }
      destruct Esh as (d & -> & ->).
      eapply Rle_trans; [apply dot_bound; [apply Hm0|exact Hx1]|].
      assert (L : l1 (row a r) <= m 0%nat * INR (Nat.max (last (dims a) 1%nat) 1)).
      { rewrite l1_sum. pose proof (Rle_abs (sum (map Rabs (row a r)))) as P1.
        assert (P2 : Rabs (sum (map Rabs (row a r))) <= INR (List.length (map Rabs (row a r))) * m 0%nat).
        { apply sum_bound. unfold within in Hx0 |- *. rewrite Forall_map. eapply Forall_impl; [|exact Hx0].
          cbn. intros x. rewrite Rabs_Rabsolu. auto. }
        rewrite map_length in P2. pose proof (row_length a r) as P3.
        assert (P4 : INR (List.length (row a r)) <= INR (Nat.max (last (dims a) 1%nat) 1)) by (apply le_INR; lia).
        pose proof (Hm0 0%nat). nra. }
      pose proof (Hm0 1%nat). nra.
Qed.
Lemma reduce_sum_bound b v : kind n = ReduceSum -> analysable alpha shapes env n (weights l) ->
  layer_bound shapes l bounds alpha = Some b -> entry env n 0 v ->
  (forall y, match outputs n with o :: _ => env o | [] => None end = Some y -> flat y <> []) -> Rabs v <= b.
Proof.
  intros K A H He Hne. unfold analysable in A. rewrite K in A. unfold entry in He. rewrite K in He.
  destruct He as (xs & x & y & Ea & Ey & Hx & Hl & ->).
  assert (Hx0 : within (m 0%nat) xs) by (eapply within_in; [apply Hm|]; unfold values; rewrite Ea; exact Hx).
  specialize (Hne y Ey).
  pose proof dynamic_bound as DB. revert DB.
  unfold arg in Ea. destruct (inputs n) as [|s0 rest] eqn:Ei; intros DB; cbn [nth_error] in Ea; try discriminate.
  destruct (outputs n) as [|o orest] eqn:Eo; [discriminate|].
  destruct A as (_ & Nc & A). destruct (A x y Ea Ey) as (si & so & Esi & Eso & Hso & Hp).
  unfold layer_bound in H. fold n in H. destruct (compute_layer_bound l bounds alpha) as [cb|]; [|discriminate].
  rewrite K, Ei, Eo, Esi, Eso in H. injection H as <-.
  assert (Ew : map_get s0 (weights l) = None).
  { apply map_get_none, Nc. }
  rewrite <- (DB 0%nat s0 x) by auto.
  assert (Wy : well_formed y) by (eapply Hwf, Ey). red in Wy.
  assert (0 < prod (dims y))%nat by (rewrite <- Wy; destruct (flat y); [congruence|cbn; lia]).
  assert (E : (prod si = List.length xs * prod so)%nat).
  { assert ((prod si * prod (dims y) = (List.length xs * prod so) * prod (dims y)))%nat by nia.
    apply (Nat.mul_cancel_r _ _ (prod (dims y))); lia. }
  rewrite (Nat.max_l (prod so) 1) by lia. rewrite E, Nat.div_mul by lia.
  pose proof (sum_bound _ _ Hx0) as P. eapply Rle_trans; [exact P|]. rewrite Rmult_comm.
  apply Rmult_le_compat_l; [apply Hm0|]. apply le_INR. lia.
Qed.

(** *** Elementary functions *)
Lemma abs_le a b : - b <= a <= b -> Rabs a <= b.
Proof. intros. apply Rabs_le. lra. Qed.
Lemma sigmoid_bound x : Rabs (/ (1 + exp (- x))) <= 1.
Proof.
  pose proof (exp_pos (- x)). assert (0 < / (1 + exp (- x))) by (apply Rinv_0_lt_compat; lra).
  apply abs_le. split; [lra|]. rewrite <- Rinv_1 at 2. apply Rinv_le_contravar; lra.
Qed.
Lemma ratio_bound a b : 0 < b -> Rabs a <= b -> Rabs (a / b) <= 1.
Proof.
  intros Hb Ha. unfold Rdiv. rewrite Rabs_mult, Rabs_inv, (Rabs_right b) by lra.
  apply Rmult_le_reg_r with b; [lra|]. rewrite Rmult_assoc, Rinv_l by lra. lra.
Qed.
Lemma tanh_bound x : Rabs ((exp x - exp (- x)) / (exp x + exp (- x))) <= 1.
Proof. pose proof (exp_pos x). pose proof (exp_pos (- x)). apply ratio_bound; [lra|]. apply abs_le. lra. Qed.
Lemma softmax_bound lane x : In x lane -> Rabs (exp x / sum (map exp lane)) <= 1.
Proof.
  intros H. assert (G : exp x <= sum (map exp lane)).
  { induction lane as [|y lane IH]; [destruct H|]. cbn. fold (sum (map exp lane)).
    assert (0 <= sum (map exp lane)).
    { apply sum_nonneg. apply Forall_forall. intros z Hz. apply in_map_iff in Hz. destruct Hz as (w & <- & _). left. apply exp_pos. }
    destruct H as [->|H]; [lra|]. specialize (IH H). pose proof (exp_pos y). lra. }
  pose proof (exp_pos x). apply ratio_bound; [lra|]. rewrite Rabs_right; lra.
Qed.
Lemma averaged_bound x0 b v : 0 <= b -> within b x0 -> averaged x0 v -> Rabs v <= b.
Proof.
  intros Hb H (ws & xs & _ & Hx & Hp & Hs & ->).
  eapply Rle_trans; [apply dot_bound; [exact Hb|eapply within_in; eassumption]|].
  assert (E : l1 ws = sum ws).
  { rewrite l1_sum. f_equal. rewrite <- (map_id ws) at 2. apply map_ext_in. intros w Hw'.
    apply Rabs_right. pose proof (proj1 (Forall_forall _ _) Hp w Hw') as G. cbn in G. lra. }
  rewrite E. nra.
Qed.
Lemma powf_ge_nat b k x : 0 <= b -> Rabs x <= b -> Rabs (x ^ k) <= powf b (INR k).
Proof.
  intros Hb Hx. rewrite <- RPow_abs. unfold powf. destruct (Req_EM_T b 0) as [->|Nb].
  - assert (E : Rabs x = 0) by (pose proof (Rabs_pos x); lra). rewrite E.
    destruct (Req_EM_T (INR k) 0) as [Ek|Nk].
    + assert (k = 0)%nat by (apply INR_eq; exact Ek). subst k. cbn. lra.
    + destruct k; [cbn in Nk; lra|]. cbn. lra.
  - rewrite Rpower_pow by lra. apply pow_incr. split; [apply Rabs_pos|exact Hx].
Qed.
Lemma powf_ge_real b e x : 0 <= e -> 0 < x -> x <= b -> Rabs (Rpower x e) <= powf b e.
Proof.
  intros He Hx Hb. unfold powf. destruct (Req_EM_T b 0) as [->|Nb]; [lra|].
  rewrite Rabs_right by (left; apply exp_pos). apply Rle_Rpower_l; lra.
Qed.
Lemma powf_nonneg b e : 0 <= powf b e.
Proof. unfold powf. destruct (Req_EM_T b 0); [destruct (Req_EM_T e 0); lra|]. left. apply exp_pos. Qed.
Lemma norm_bound lane x eps mx : In x lane -> within mx lane -> 0 < eps -> Rabs ((x - mean lane) / sqrt (variance lane + eps)) <= 2 * mx / sqrt eps.
Proof.
  intros Hx Hl He. pose proof (variance_nonneg lane) as Hv.
  assert (Hs : 0 < sqrt eps) by (apply sqrt_lt_R0, He).
  assert (Hs' : sqrt eps <= sqrt (variance lane + eps)) by (apply sqrt_le_1; lra).
  assert (Hd : Rabs (x - mean lane) <= 2 * mx).
  { replace (x - mean lane) with (x + - mean lane) by lra. eapply Rle_trans; [apply Rabs_triang|]. rewrite Rabs_Ropp.
    pose proof (mean_bound mx lane ltac:(intros ->; destruct Hx) Hl). pose proof (proj1 (Forall_forall _ _) Hl x Hx) as G. cbn in G. lra. }
  unfold Rdiv. rewrite Rabs_mult, Rabs_inv, (Rabs_right (sqrt _)) by lra.
  apply Rmult_le_compat; [apply Rabs_pos|left; apply Rinv_0_lt_compat; lra|exact Hd|].
  apply Rinv_le_contravar; lra.
Qed.
Lemma min_fold r : forall v, 0 < v -> Forall (fun x => 0 < x) r -> 0 < fold_left Rmin r v /\ fold_left Rmin r v <= v /\ (forall x, In x r -> fold_left Rmin r v <= x).
Proof.
  induction r as [|y r IH]; intros v Hv Hr; cbn; [repeat split; [lra|lra|intros ? []]|].
  inversion Hr; subst. assert (0 < Rmin v y) by (apply Rmin_pos; lra).
  destruct (IH (Rmin v y) H H2) as (G1 & G2 & G3). pose proof (Rmin_l v y). pose proof (Rmin_r v y).
  repeat split; [lra|lra|]. intros x [->|Hx]; [lra|auto].
Qed.
End Layer.
