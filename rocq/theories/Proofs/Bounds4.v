From Coq Require Import List Arith Bool Reals String ZArith Lia Lra.
From Verif Require Import Spec.Shapes Spec.Tensors Spec.RealOps Model.Bounds Proofs.Bounds Proofs.Bounds2 Proofs.Bounds3.
Import ListNotations.
Local Open Scope nat_scope.
Local Open Scope R_scope.

Ltac pos := repeat first [apply Rplus_le_le_0_compat | apply Rmult_le_pos]; first [assumption|lra].

Section Layer.
Variables (alpha : R) (shapes : string -> option (list nat)) (env : valuation) (l : layer) (bounds : list (string * R)).
Let n := body l.
Let m i := input_bound bounds l i.
Hypothesis Ha : 1 <= alpha.
Hypothesis Hm0 : forall i, 0 <= m i.
Hypothesis Hm : forall i, within (m i) (values env n i).
Hypothesis Hw : forall s w, map_get s (weights l) = Some w -> env s = Some w.
Hypothesis Hwf : forall s t, env s = Some t -> well_formed t.
Hypothesis Hknown : forall i s t, nth_error (inputs n) i = Some s -> env s = Some t -> map_get s (weights l) = None ->
  exists b, map_get s bounds = Some b.
Hypothesis Hbnd : forall s b, map_get s bounds = Some b -> 0 <= b.

Lemma compute_nonneg b : compute_layer_bound l bounds alpha = Some b -> 0 <= b.
Proof.
  unfold compute_layer_bound. fold n. fold m.
  pose proof (bias_nonneg l 2) as B2. pose proof (scale_nonneg l 1) as S1.
  pose proof (Hm0 0%nat) as M0. pose proof (Hm0 1%nat) as M1. pose proof (Hm0 2%nat) as M2.
  assert (RM : forall i y, 0 <= Rmax (m i) y) by (intros i y; eapply Rle_trans; [apply (Hm0 i)|apply Rmax_l]).
  destruct (kind n) eqn:K; intros H; try (injection H as <-; first [assumption|lra|pos]).
  - destruct (weight_at l 1); [|discriminate]. destruct (max_output_channel_l1 _ _ _) as [w|] eqn:E; [|discriminate].
    injection H as <-. apply channel_nonneg in E. pos.
  - destruct (weight_at l 1); [|discriminate].
    match type of H with match ?o with _ => _ end = _ => destruct o as [w|] eqn:E; [|discriminate] end.
    injection H as <-. assert (0 <= w); [|pos].
    destruct (trans_b n); [apply channel_nonneg in E; exact E|]. destruct (2 <=? _).
    + destruct (_ || _ || _); [discriminate|]. injection E as <-. apply max_list_nonneg.
    + injection E as <-. apply l1_nonneg.
  - cbv zeta in H. destruct (weight_at l 1) as [w1|]; destruct (weight_at l 0) as [w0|];
      repeat match type of H with (if ?c then Some _ else _) = _ => destruct c | (if ?c then (if _ then _ else _) else _) = _ => destruct c end;
      injection H as <-; (apply Rmult_le_pos; [|assumption]);
      try assumption; match goal with |- 0 <= if ?c then _ else _ => destruct c end;
      first [apply max_list_nonneg|apply max_abs_nonneg].
  - destruct (weight_at l 1) as [w|]; [|discriminate]. destruct (_ || _); [injection H as <-; assumption|].
    destruct (_ =? 0)%nat; [injection H as <-; assumption|]. injection H as <-.
    match goal with |- 0 <= max_list ?x * _ + _ => pose proof (max_list_nonneg x) end. pos.
  - injection H as <-. 
    match goal with |- 0 <= _ / match ?o with _ => _ end => assert (P : 0 < match o with Some b => b | None => 1 end) end.
    { destruct (weight_at l 1) as [w|]; [|lra].
      destruct (filter _ _) as [|v r] eqn:E; [lra|].
      assert (F : Forall (fun x => 0 < x) (v :: r)).
      { rewrite <- E. apply Forall_forall. intros x Hx. apply filter_In in Hx. destruct Hx as [_ Hx]. destruct (Rlt_dec 0 x); [assumption|discriminate]. }
      inversion F; subst. apply min_fold; assumption. }
    unfold Rdiv. apply Rmult_le_pos; [assumption|]. left. apply Rinv_0_lt_compat, P.
  - destruct (weight_at l 1) as [w|]; [|discriminate]. destruct (flat w) as [|e [|]]; try discriminate.
    destruct (Rle_dec 1 e); [injection H as <-; apply powf_nonneg|].
    destruct (Rle_dec 0 e); [|discriminate]. injection H as <-. apply RM.
  - injection H as <-. apply RM.
  - destruct (Rle_dec _ _); [|discriminate]. injection H as <-. left. apply exp_pos.
  - injection H as <-. apply RM.
  - injection H as <-. apply RM.
  - injection H as <-. apply max_list_nonneg.
  - injection H as <-. apply RM.
  - injection H as <-. apply RM.
  - injection H as <-. apply RM.
  - injection H as <-. apply Rplus_le_le_0_compat; [|assumption]. apply Rmult_le_pos; [assumption|].
    unfold Rdiv. apply Rmult_le_pos; [apply Rmult_le_pos; [lra|assumption]|]. left. apply Rinv_0_lt_compat, sqrt_lt_R0.
    match goal with |- 0 < Rmax ?a ?b => pose proof (Rmax_r a b) end. assert (0 < / 10 ^ 12) by (apply Rinv_0_lt_compat; lra). lra.
  - injection H as <-. apply Rplus_le_le_0_compat; [|assumption]. apply Rmult_le_pos; [assumption|].
    unfold Rdiv. apply Rmult_le_pos; [apply Rmult_le_pos; [lra|assumption]|]. left. apply Rinv_0_lt_compat, sqrt_lt_R0.
    match goal with |- 0 < Rmax ?a ?b => pose proof (Rmax_r a b) end. assert (0 < / 10 ^ 12) by (apply Rinv_0_lt_compat; lra). lra.
  - injection H as <-. apply Rplus_le_le_0_compat; [|assumption]. apply Rmult_le_pos; [assumption|].
    unfold Rdiv. apply Rmult_le_pos; [apply Rmult_le_pos; [lra|assumption]|]. left. apply Rinv_0_lt_compat, sqrt_lt_R0.
    match goal with |- 0 < Rmax ?a ?b => pose proof (Rmax_r a b) end. assert (0 < / 10 ^ 12) by (apply Rinv_0_lt_compat; lra). lra.
Qed.
Lemma layer_nonneg b : layer_bound shapes l bounds alpha = Some b -> 0 <= b.
Proof.
  unfold layer_bound. fold n. destruct (compute_layer_bound l bounds alpha) as [cb|] eqn:E; [|discriminate].
  apply compute_nonneg in E. intros [= <-].
  assert (G : forall s, 0 <= match map_get s bounds with Some b => b | None => 1 end).
  { intros s. destruct (map_get s bounds) as [x|] eqn:Es; [apply Hbnd in Es; exact Es|lra]. }
  destruct (kind n); try exact E.
  - destruct (inputs n) as [|i0 [|i1 r]]; try exact E. destruct (map_get i0 (weights l)); [exact E|]. destruct (map_get i1 (weights l)); [exact E|].
    apply Rmult_le_pos; [apply Rmult_le_pos; apply G|apply pos_INR].
  - destruct (inputs n) as [|i0 r]; try exact E. destruct (shapes i0); [|exact E]. destruct (outputs n); [exact E|].
    apply Rmult_le_pos; [apply G|apply pos_INR].
Qed.
(** Only ReduceSum and MatMul are overridden. *)
Lemma layer_compute b : kind n <> ReduceSum -> kind n <> MatMul ->
  layer_bound shapes l bounds alpha = Some b -> compute_layer_bound l bounds alpha = Some b.
Proof.
  unfold layer_bound. fold n. destruct (compute_layer_bound l bounds alpha); [|discriminate].
  destruct (kind n); intros; congruence.
Qed.
Lemma entry_bounded j s t b v : analysable alpha shapes env n (weights l) -> layer_bound shapes l bounds alpha = Some b ->
  nth_error (outputs n) j = Some s -> env s = Some t -> In v (flat t) -> (kind n = ReduceSum -> j = 0%nat) -> (kind n = TopK -> j = 0%nat) ->
  entry env n j v -> Rabs v <= b.
Proof.
  intros A H Es Et Hv Hj1 Hj2 He.
  destruct (kind n) eqn:K.
  all: try (apply layer_compute in H; [|congruence|congruence]).
  all: match type of K with
    | _ = Conv => eapply conv_bound; eassumption
    | _ = ConvTranspose => eapply conv_transpose_bound; eassumption
    | _ = Gemm => eapply gemm_bound; eassumption
    | _ = MatMul => eapply matmul_bound; eassumption
    | _ = ReduceSum => rewrite (Hj1 eq_refl) in *; eapply reduce_sum_bound; try eassumption
    | _ => unfold analysable in A; rewrite K in A; unfold entry in He; rewrite K in He;
        unfold compute_layer_bound in H; fold n in H; rewrite K in H; try (injection H as <-)
    end.
  all: pose proof (Hm0 0%nat) as M0; pose proof (Hm0 1%nat) as M1; pose proof (Hm0 2%nat) as M2.
  all: assert (O : forall i x, In x (values env n i) -> Rabs x <= m i) by (intros; eapply operand; eassumption).
  all: unfold m in *.
  all: try (apply O; exact He).
  all: try match type of A with
    | dominated _ _ => destruct (proj1 (Forall_forall _ _) (A j s t Es Et) v Hv) as (x & Hx & Hle); specialize (O 0%nat x Hx); lra
    | each_output _ _ (fun _ v => Rabs v <= 1) => exact (proj1 (Forall_forall _ _) (A j s t Es Et) v Hv)
    end.
  all: try match type of He with
    | normalized _ _ _ => 
        destruct A as (A1 & A2 & A3); destruct He as (lane & x & g & bb & Hx & Hlane & Hg & Hb & He);
        cbv zeta in He; destruct He as [Hpos ->];
        apply plus_bound; [apply mult_bound; [eapply optional_scale; eassumption|]|eapply optional_bias; eassumption];
        match goal with |- context [Rmax ?e ?q] => change q with (/ 10 ^ 12); assert (E : Rmax e (/ 10 ^ 12) = e);
          [apply Rmax_left; destruct (epsilon n) eqn:Ee; [exact A3|apply Rinv_le_contravar; lra]|]; rewrite E;
          assert (0 < e); [assert (0 < / 10 ^ 12) by (apply Rinv_0_lt_compat; lra); pose proof (Rmax_r e (/ 10 ^ 12)); lra|] end;
        apply norm_bound; [exact Hx|eapply within_in; [apply Hm|exact Hlane]|assumption]
    end.
  all: try (destruct He as [-> | ->]; rewrite ?Rabs_R0, ?Rabs_R1; lra).
  all: try match type of He with averaged _ _ => eapply averaged_bound; [exact M0|apply Hm|exact He] end.
  - (* ReduceMean etc. are below; BatchNormalization *)
    destruct A as [A1 A2]. destruct He as (x & g & bb & Hx & Hg & Hb & ->).
    apply plus_bound; [apply mult_bound; [eapply optional_scale; eassumption|apply O, Hx]|eapply optional_bias; eassumption].
  - destruct He as (x & y & Hx & Hy & ->). apply mult_bound; auto.
  - destruct He as (x & y & Hx & Hy & ->). apply plus_bound; auto.
  - destruct He as (x & y & Hx & Hy & ->). unfold Rminus. apply plus_bound; [auto|]. rewrite Rabs_Ropp. auto.
  - (* Div *) destruct He as (x & y & Hx & Hy & Ny & ->). destruct A as (sn & w & Esn & Hin).
    destruct (map_get_some sn (weights l) (in_map fst _ _ Hin)) as [w' Ew'].
    assert (Ewa : weight_at l 1 = Some w') by (unfold weight_at; fold n; rewrite Esn; exact Ew').
    rewrite Ewa. pose proof (weight_arg env l Hw _ _ Ewa) as Earg. unfold values in Hy. fold n in Earg. rewrite Earg in Hy.
    assert (Hyf : In (Rabs y) (filter (fun v => if Rlt_dec 0 v then true else false) (map Rabs (flat w')))).
    { apply filter_In. split; [apply in_map, Hy|]. pose proof (Rabs_pos_lt y Ny). destruct (Rlt_dec 0 (Rabs y)); [reflexivity|lra]. }
    destruct (filter _ _) as [|f0 fr] eqn:Ef; [destruct Hyf|].
    assert (F : Forall (fun x => 0 < x) (f0 :: fr)).
    { rewrite <- Ef. apply Forall_forall. intros z Hz. apply filter_In in Hz. destruct Hz as [_ Hz]. destruct (Rlt_dec 0 z); [assumption|discriminate]. }
    inversion F; subst. destruct (min_fold fr f0 H1 H2) as (P1 & P2 & P3).
    assert (P4 : fold_left Rmin fr f0 <= Rabs y) by (destruct Hyf as [<-|G]; auto).
    unfold Rdiv. rewrite Rabs_mult, Rabs_inv. apply Rmult_le_compat; [apply Rabs_pos| |apply O, Hx|apply Rinv_le_contravar; lra].
    left. apply Rinv_0_lt_compat. lra.
  - destruct He as (x & Hx & ->). rewrite Rabs_Ropp. auto.
  - (* Pow *) destruct He as (x & e & Hx & He1 & He). destruct (weight_at l 1) as [w|] eqn:Ew; [|discriminate].
    pose proof (weight_arg env l Hw _ _ Ew) as Earg. unfold values in He1. fold n in Earg. rewrite Earg in He1.
    destruct (flat w) as [|e0 [|]] eqn:Ef; try discriminate. destruct He1 as [<-|[]].
    assert (P : 0 <= e0 -> Rabs v <= powf (input_bound bounds l 0) e0).
    { intros H0. specialize (O 0%nat x Hx). destruct He as [[Hp ->]|[(k & -> & ->)|(-> & _ & ->)]].
      - rewrite Rabs_right in O by lra. apply powf_ge_real; assumption.
      - apply powf_ge_nat; assumption.
      - rewrite Rabs_R0. apply powf_nonneg. }
    destruct (Rle_dec 1 e0); [injection H as <-; apply P; lra|]. destruct (Rle_dec 0 e0); [|discriminate]. injection H as <-.
    eapply Rle_trans; [apply P; assumption|apply Rmax_r].
  - (* Sqrt *) destruct He as (x & Hx & Hp & ->). specialize (O 0%nat x Hx). rewrite Rabs_right in O by lra.
    rewrite Rabs_right by (apply Rle_ge, sqrt_pos). eapply Rle_trans; [apply sqrt_le_1; [exact Hp|exact M0|exact O]|apply Rmax_r].
  - (* Exp *) destruct He as (x & Hx & ->). destruct (Rle_dec _ _); [|discriminate]. injection H as <-.
    rewrite Rabs_right by (left; apply exp_pos). specialize (O 0%nat x Hx). apply Rabs_le_inv in O || pose proof (Rle_abs x).
    destruct (Req_EM_T x (input_bound bounds l 0)) as [->|N]; [lra|left; apply exp_increasing; pose proof (Rle_abs x); lra].
  - (* Log *) destruct He as (x & Hx & Hp & ->). pose proof (proj1 (Forall_forall _ _) A x Hx) as Hlow. cbn in Hlow.
    specialize (O 0%nat x Hx). rewrite Rabs_right in O by lra.
    assert (Hal : 0 < alpha) by lra.
    assert (L1 : - ln alpha <= ln x).
    { rewrite <- ln_Rinv by lra. destruct (Req_EM_T (/ alpha) x) as [->|N]; [lra|]. left. apply ln_increasing; [apply Rinv_0_lt_compat; lra|lra]. }
    pose proof (Rmax_l (input_bound bounds l 0) (ln alpha)). pose proof (Rmax_r (input_bound bounds l 0) (ln alpha)).
    assert (ln x <= x). { assert (ln x <= x - 1); [|lra]. rewrite <- (ln_exp (x - 1)). 
      destruct (Req_EM_T x 1) as [->|N1]; [replace (1 - 1) with 0 by lra; rewrite exp_0; lra|].
      left. apply ln_increasing; [exact Hp|]. pose proof (exp_ineq1 (x - 1) ltac:(lra)). lra. }
    apply abs_le. lra.
  - destruct He as (x & Hx & ->). apply abs_le. pose proof (SIN_bound x). lra.
  - destruct He as (x & Hx & ->). apply abs_le. pose proof (COS_bound x). lra.
  - (* Relu *) destruct He as (x & Hx & ->). specialize (O 0%nat x Hx). pose proof (Rle_abs x).
    apply abs_le. unfold Rmax. destruct (Rle_dec 0 x); lra.
  - (* LeakyRelu *) destruct He as (x & Hx & He). specialize (O 0%nat x Hx). fold n.
    set (a := match slope n with Some a => a | None => / 100 end) in *.
    pose proof (Rmax_l (input_bound bounds l 0) (Rabs a * input_bound bounds l 0)). pose proof (Rmax_r (input_bound bounds l 0) (Rabs a * input_bound bounds l 0)).
    destruct He as [[_ ->]|[_ ->]]; [lra|]. rewrite Rabs_mult. pose proof (Rabs_pos a). nra.
  - destruct He as (x & Hx & ->). apply sigmoid_bound.
  - destruct He as (x & Hx & ->). apply tanh_bound.
  - apply abs_le. lra.
  - (* Gelu *) destruct He as (x & e & Hx & Hee & ->). specialize (O 0%nat x Hx). rewrite Rabs_mult.
    assert (Rabs (1 + e) <= 2) by (apply abs_le; lra). unfold Rdiv. rewrite Rabs_mult, (Rabs_right (/ 2)) by lra.
    pose proof (Rabs_pos x). pose proof (Rabs_pos (1 + e)). nra.
  - (* HardSwish *) destruct He as (x & Hx & ->). specialize (O 0%nat x Hx). rewrite Rabs_mult.
    assert (Rabs (Rmin 6 (Rmax 0 (x + 3)) / 6) <= 1).
    { apply ratio_bound; [lra|]. apply abs_le. unfold Rmin, Rmax. destruct (Rle_dec 0 (x + 3)); destruct (Rle_dec 6 _); lra. }
    pose proof (Rabs_pos x). nra.
  - destruct He as (lane & x & Hx & ->). apply softmax_bound, Hx.
  - (* AveragePool *) destruct He as (xs & k & Hk & Hk0 & Hx & ->).
    assert (W : within (input_bound bounds l 0) xs) by (eapply within_in; [apply Hm|exact Hx]).
    pose proof (sum_bound _ _ W) as P. assert (0 < INR k) by (apply lt_0_INR; lia). assert (INR (List.length xs) <= INR k) by (apply le_INR; lia).
    unfold Rdiv. rewrite Rabs_mult, Rabs_inv, (Rabs_right (INR k)) by lra.
    apply Rmult_le_reg_r with (INR k); [lra|]. rewrite Rmult_assoc, Rinv_l by lra. nra.
  - destruct He as (xs & Hne & Hx & ->). apply mean_bound; [exact Hne|]. eapply within_in; [apply Hm|exact Hx].
  - destruct He as (xs & Hne & Hx & ->). apply mean_bound; [exact Hne|]. eapply within_in; [apply Hm|exact Hx].
  - (* ReduceSum *) intros y Ey. fold n in Ey. destruct (outputs n) as [|o r]; [discriminate|]. cbn in Es. assert (y = t) by congruence. subst. intros E. rewrite E in Hv. destruct Hv.
  - (* TopK *) rewrite (Hj2 eq_refl) in He. apply O, He.
  - (* Concat *) destruct He as (i & Hi & Hx). eapply Rle_trans; [apply O, Hx|]. apply max_list_ge, in_map_iff. exists i. split; [reflexivity|apply in_seq; cbn; lia].
  - (* Pad *) destruct He as [He|He]; [eapply Rle_trans; [apply O, He|apply Rmax_l]|]. unfold optional in He.
    pose proof (Rmax_r (input_bound bounds l 0) (Rabs (input_bound bounds l 2))). pose proof (Rle_abs (input_bound bounds l 2)).
    destruct (arg env n 2) as [t2|] eqn:E2; [|rewrite He, Rabs_R0; pose proof (Rabs_pos (input_bound bounds l 2)); lra].
    assert (Rabs v <= input_bound bounds l 2) by (apply O; unfold values; rewrite E2; exact He). lra.
  - destruct He as [He|He]; (eapply Rle_trans; [apply O, He|]); [apply Rmax_l|apply Rmax_r].
  - (* ScatterND *) destruct He as [He|He]; [eapply Rle_trans; [apply O, He|apply Rmax_l]|].
    fold n. destruct (2 <? List.length (inputs n))%nat eqn:E2; [eapply Rle_trans; [apply O, He|apply Rmax_r]|].
    apply Nat.ltb_ge in E2. unfold values, arg in He. rewrite (proj2 (nth_error_None _ _) E2) in He. destruct He.
Qed.
End Layer.
