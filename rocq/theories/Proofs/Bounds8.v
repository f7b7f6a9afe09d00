From Coq Require Import List Arith Bool Reals String ZArith Znumtheory Lia Lra.
From Verif Require Import Spec.Shapes Spec.Tensors Spec.RealOps Spec.Widths Model.Bounds Proofs.Bounds Proofs.Bounds2 Proofs.Bounds3 Proofs.Bounds4 Proofs.Bounds5 Proofs.Bounds6 Proofs.Bounds7.
From Verif Require Import Spec.Numbers Model.Builder Model.Gadgets Proofs.RangeCheck Proofs.Gadgets Proofs.Rescale Proofs.RescaleArray Proofs.ArithmeticProps.
Import ListNotations.
Local Open Scope string_scope.
Local Open Scope nat_scope.
Local Open Scope R_scope.

(** ** The honest prover *)
Lemma IZR_pow2 k : IZR (2 ^ Z.of_nat k) = 2 ^ k.
Proof. rewrite <- pow_IZR. reflexivity. Qed.
Lemma honest_fits p c F kappa bound err is_relu xs vs :
  let n := compute_n_bits (2 ^ kappa) bound in
  prime p -> (0 < c)%nat -> (kappa < 32)%nat -> (n <= 64)%nat -> width_ok c kappa -> width_ok c n ->
  (2 * (2 ^ Z.of_nat kappa * 2 ^ Z.of_nat (rounded c n) + 2 ^ Z.of_nat (rounded c kappa)) <= p)%Z ->
  2 ^ kappa * bound + err / 2 ^ kappa < 2 ^ (n - 1) ->
  Forall2 (fun x v => Rabs v <= bound /\ Rabs (IZR x - 2 ^ kappa * 2 ^ kappa * v) <= err) xs vs ->
  run honest_hint (table_rowsb c F) (maybe_rescale p c (map (enc p) xs) true is_relu kappa n) =
  Some (map (fun x => enc p (layer_output kappa true is_relu x)) xs).
Proof.
  intros n Hp Hc Hk Hn W1 W2 Hs Hb HF.
  assert (N1 : (1 <= n)%nat). { unfold n, compute_n_bits. destruct (Rle_dec _ 1); lia. }
  set (s := (n - 1)%nat) in *. replace n with (s + 1)%nat in * by (unfold s; lia).
  apply maybe_rescale_run; auto; [lia|].
  assert (P : 0 < 2 ^ kappa) by (apply pow_lt; lra).
  clear - HF Hb P. induction HF as [|x v xs vs [A B] _ IH]; constructor; [|exact IH].
  unfold layer_range. set (a := 2 ^ kappa) in *. set (q := 2 ^ s) in *.
  assert (K : Rabs (IZR x) < a * q).
  { replace (IZR x) with ((IZR x - a * a * v) + a * a * v) by lra. eapply Rle_lt_trans; [apply Rabs_triang|].
    rewrite (Rabs_mult (a * a)), (Rabs_right (a * a)) by nra.
    assert (a * a * Rabs v <= a * a * bound) by (apply Rmult_le_compat_l; nra).
    assert (a * (a * bound + err / a) < a * q) by (apply Rmult_lt_compat_l; lra).
    replace (a * (a * bound + err / a)) with (a * a * bound + err) in H0 by (field; lra). lra. }
  apply Rabs_def2 in K. destruct K as [K1 K2].
  assert (E : IZR (2 ^ Z.of_nat kappa * 2 ^ Z.of_nat s) = a * q) by (rewrite mult_IZR, !IZR_pow2; reflexivity).
  split; [apply le_IZR; rewrite opp_IZR, E; lra|apply lt_IZR; rewrite E; exact K1].
Qed.
Definition scalar (x : R) : tensor R := {| dims := [1; 1]%nat; flat := [x] |}.
Definition gemm32 : layer := {| name := "g"; body := mk Gemm ["x"; "w"] ["y"]; weights := [("w", scalar 32)] |}.
Definition env32 := env_of [("x", scalar 1); ("w", scalar 32); ("y", scalar 32)].
Lemma n_bits_24 : compute_n_bits (2 ^ 18) 32 = 24%nat.
Proof. rewrite (n_bits_eq _ _ 22); [reflexivity|]. rewrite Rabs_right; cbn; lra. Qed.
Lemma power_of_two : consistent ["x"] [gemm32] env32 /\ supported (2 ^ 18) (fun _ => None) env32 gemm32 /\
  compute_bounds (2 ^ 18) (fun _ => None) ["x"] [gemm32] = Some ([("y", 32); ("x", 1)], [("g", 24%nat)]) /\
  run honest_hint (table_rowsb 12 (fun _ => [])) (maybe_rescale bn254_r 12 [enc bn254_r (2 ^ 18 * (32 * 2 ^ 18))] true false 18 24) = None.
Proof.
  split; [split; [split; [|split]|]|split; [|split]].
  - intros s t [<-|[]] [= <-]. entries. rewrite Rabs_R1. lra.
  - outs. entries. exists (scalar 32), 0%nat, 0, [1]. cbn. repeat split; auto. unfold dot. cbn. lra.
  - apply env_all. entries; reflexivity.
  - ord.
  - intros C. contradiction C; reflexivity.
  - bits tt. unfold bias_bound, weight_at. cbn -[pow f64_max compute_n_bits max_abs max_list l1].
    replace (max_list [l1 [32]] * 1 + 0) with 32; [|rewrite l1_1; unfold max_list; cbn; rewrite Rabs_right, Rmax_right; lra].
    rewrite n_bits_24. destruct (Rlt_dec _ _) as [C|C]; [destruct (huge 32); [cbn; lra|exact C]|reflexivity].
  - vm_compute. reflexivity.
Qed.

(** ** The scale *)
Lemma log_cover v : 1 < v -> v <= 2 ^ ceil_nat (ln v / ln 2) /\ forall k, v <= 2 ^ k -> (ceil_nat (ln v / ln 2) <= k)%nat.
Proof.
  intros H. destruct (pow2_between v H) as [m Hm]. rewrite (ceil_log v m Hm). split; [apply Hm|].
  intros k Hk. destruct (Nat.le_gt_cases k m) as [G|G]; [|lia].
  assert (2 ^ k <= 2 ^ m) by (apply Rle_pow; [lra|exact G]). lra.
Qed.
Lemma exponent_fits n_bits mb v : (1 <= n_bits)%nat -> mb <= 2 ^ (n_bits - 1) -> Rabs v <= Rmax 1 mb ->
  let alpha := 2 ^ max_safe_exponent n_bits mb in Rabs (alpha * alpha * v) <= 2 ^ (n_bits - 1).
Proof.
  intros Hn Hm Hv. unfold max_safe_exponent.
  assert (E : exists c, (c + 1 <= n_bits)%nat /\ Rabs v <= 2 ^ c /\
    (if Rlt_dec 1 mb then ceil_nat (ln mb / ln 2) else 0%nat) = c).
  { destruct (Rlt_dec 1 mb) as [L|L].
    - destruct (log_cover mb L) as [A B]. specialize (B _ Hm). eexists. split; [|split; [|reflexivity]]; [lia|].
      rewrite Rmax_right in Hv by lra. lra.
    - exists 0%nat. split; [lia|split; [|reflexivity]]. rewrite Rmax_left in Hv by lra. cbn. lra. }
  destruct E as (c & H1 & H2 & ->). cbv zeta. set (e := ((n_bits - (c + 1)) / 2)%nat).
  assert (Ee : (2 * e <= n_bits - (c + 1))%nat) by (apply Nat.mul_div_le; lia).
  rewrite Rabs_mult. rewrite <- pow_add. rewrite (Rabs_right (2 ^ _)) by (left; apply Rgt_lt, pow_lt; lra).
  apply Rle_trans with (2 ^ (e + e) * 2 ^ c).
  - apply Rmult_le_compat_l; [left; apply pow_lt; lra|exact H2].
  - rewrite <- pow_add. apply Rle_pow; [lra|lia].
Qed.
Lemma max_bound_ge shapes layers : forall bounds mb r, max_bound_loop shapes layers bounds mb = Some r -> mb <= r.
Proof.
  induction layers as [|l layers IH]; intros bounds mb r H; cbn in H; [injection H as <-; lra|].
  destruct (layer_bound _ _ _ _); [|discriminate]. apply IH in H. destruct (needs_rescale _); [|exact H].
  eapply Rle_trans; [apply Rmax_l|exact H].
Qed.
Lemma outputs_not_topk l b : kind (body l) <> TopK -> output_bounds l b = rev (map (fun o => (o, b)) (outputs (body l))).
Proof. unfold output_bounds. destruct (kind (body l)); congruence. Qed.
Lemma max_bound_first shapes env (Hwf : forall s t, env s = Some t -> well_formed t) pre l rest : forall known bounds mb r,
  inv env known bounds ->
  ordered env known (map (fun l => (body l, weights l)) (pre ++ l :: rest)) ->
  (forall n j s t, In n (map body (pre ++ [l])) -> nth_error (outputs n) j = Some s -> env s = Some t -> Forall (entry env n j) (flat t)) ->
  Forall (supported (2 ^ 18) shapes env) (pre ++ [l]) ->
  Forall (fun l => needs_rescale (kind (body l)) = false /\ kind (body l) <> TopK) pre -> needs_rescale (kind (body l)) = true ->
  max_bound_loop shapes (pre ++ l :: rest) bounds mb = Some r ->
  each_output env (body l) (fun _ v => Rabs v <= r).
Proof.
  assert (A18 : 1 <= 2 ^ 18) by (cbn; lra).
  induction pre as [|x pre IH]; intros known bounds mb r I O He A Hp Hl H; cbn [app map ordered max_bound_loop] in *.
  - destruct O as (O1 & O2 & _). inversion A as [|? ? A1 _]; subst.
    destruct (layer_bound shapes l bounds (2 ^ 18)) as [b|] eqn:Eb; [|discriminate].
    destruct (step (2 ^ 18) shapes env A18 Hwf known bounds l b I O1 O2 (fun j s t => He (body l) j s t (or_introl eq_refl)) A1 Eb) as (Hb & _ & G).
    rewrite Hl in H. apply max_bound_ge in H. intros j s t Es Et. eapply Forall_impl; [|exact (G j s t Es Et)]. cbn.
    intros v Hv. assert (b <= r) by (eapply Rle_trans; [apply Rmax_r|exact H]). apply Rle_trans with b; [|assumption].
    apply Hv. intros K. rewrite K in Hl. discriminate.
  - destruct O as (O1 & O2 & O3). inversion A as [|? ? A1 A2]; subst. inversion Hp as [|? ? [P1 P2] P3]; subst.
    destruct (layer_bound shapes x bounds (2 ^ 18)) as [b|] eqn:Eb; [|discriminate].
    destruct (step (2 ^ 18) shapes env A18 Hwf known bounds x b I O1 O2 (fun j s t => He (body x) j s t (or_introl eq_refl)) A1 Eb) as (Hb & I' & _).
    rewrite outputs_not_topk in I' by exact P2. rewrite P1 in H.
    eapply (IH _ _ _ _ I' O3); try eassumption. intros n j s t Hn. apply He. right. exact Hn.
Qed.
Lemma inputs_inv env input_names : (forall s t, In s input_names -> env s = Some t -> Forall (fun x => Rabs x <= 1) (flat t)) ->
  inv env input_names (rev (map (fun s => (s, 1)) input_names)).
Proof.
  intros R1. split.
  - intros s Hs. apply map_get_some. rewrite map_rev, map_map. cbn. rewrite map_id. apply in_rev in Hs. exact Hs.
  - intros s b E. apply map_get_in, in_rev, in_map_iff in E. destruct E as (x & [= -> <-] & Hx). split; [lra|]. intros t Et. eapply R1; eassumption.
Qed.
Lemma first_accumulators n_bits shapes input_names pre l rest env mb : (1 <= n_bits)%nat ->
  consistent input_names (pre ++ l :: rest) env ->
  Forall (supported (2 ^ 18) shapes env) (pre ++ [l]) ->
  Forall (fun l => needs_rescale (kind (body l)) = false /\ kind (body l) <> TopK) pre -> needs_rescale (kind (body l)) = true ->
  compute_max_bound shapes input_names (pre ++ l :: rest) = Some mb -> mb <= 2 ^ (n_bits - 1) ->
  accumulators_fit n_bits mb env l.
Proof.
  intros Hn [(R1 & R2 & R3) O] A Hp Hl H Hm j s t Es Et.
  assert (G : each_output env (body l) (fun _ v => Rabs v <= mb)).
  { eapply (max_bound_first shapes env R3 pre l rest); try eassumption; [apply inputs_inv, R1|].
    intros n j' s' t' Hin. apply R2. rewrite map_app in *. cbn in *. apply in_app_or in Hin. apply in_or_app. cbn in *. tauto. }
  eapply Forall_impl; [|exact (G j s t Es Et)]. cbn beta. intros v Hv. apply exponent_fits; [exact Hn|exact Hm|].
  eapply Rle_trans; [exact Hv|apply Rmax_r].
Qed.
Definition chain : list layer :=
  [ {| name := "a"; body := mk Gemm ["x"; "v"] ["y"]; weights := [("v", scalar (2 ^ 20))] |};
    {| name := "b"; body := mk Gemm ["y"; "w"] ["z"]; weights := [("w", scalar (2 ^ 20))] |} ].
Definition chain_env := env_of [("x", scalar 1); ("v", scalar (2 ^ 20)); ("y", scalar (2 ^ 20)); ("w", scalar (2 ^ 20)); ("z", scalar (2 ^ 40))].
Lemma chain_overflows : consistent ["x"] chain chain_env /\ Forall (supported (2 ^ 18) (fun _ => None) chain_env) chain /\
  compute_max_bound (fun _ => None) ["x"] chain = Some (2 ^ 20) /\ max_safe_exponent 63 (2 ^ 20) = 21%nat /\
  exists l v, In l chain /\ needs_rescale (kind (body l)) = true /\
    each_output chain_env (body l) (fun _ u => u = v) /\ 2 ^ 21 * 2 ^ 21 * v = 2 ^ 82.
Proof.
  assert (E20 : 2 ^ 20 = 1048576) by (cbn; lra). assert (E40 : 2 ^ 40 = 1099511627776) by (cbn; lra).
  split; [split; [split; [|split]|]|split; [|split; [|split]]].
  - intros s t [<-|[]] [= <-]. entries. rewrite Rabs_R1. lra.
  - outs; entries.
    + exists (scalar (2 ^ 20)), 0%nat, 0, [1]. cbn -[pow]. repeat split; auto. unfold dot. cbn -[pow]. lra.
    + exists (scalar (2 ^ 20)), 0%nat, 0, [2 ^ 20]. cbn -[pow]. repeat split; auto. unfold dot. cbn. lra.
  - apply env_all. entries; reflexivity.
  - ord.
  - repeat constructor; intros C; contradiction C; reflexivity.
  - unfold compute_max_bound. cbn [max_bound_loop chain]. unfold layer_bound, compute_layer_bound, input_bound, bias_bound, weight_at, map_get.
    cbn -[pow max_list l1 Rmax]. rewrite E20.
    replace (max_list [l1 [1048576]] * 1 + 0) with 1048576; [|rewrite l1_1; unfold max_list; cbn; rewrite Rabs_right, Rmax_right; lra].
    rewrite (Rmax_right 1), Rmax_left by lra. reflexivity.
  - unfold max_safe_exponent. destruct (Rlt_dec _ _) as [L|L]; [|exfalso; apply L; rewrite E20; lra].
    rewrite (ceil_log _ 19); [reflexivity|]. cbn. lra.
  - exists (nth 1 chain gemm32), (2 ^ 40). repeat split; [cbn; auto| |rewrite <- !pow_add; reflexivity].
    intros j s t Es Et. destruct j as [|[|j]]; cbn in Es; try discriminate. injection Es as <-. injection Et as <-. entries. reflexivity.
Qed.

(** ** The folded normalisation *)
Lemma fold_exact eps scale bias mean var mul add : fold_batchnorm eps scale bias mean var = Some (mul, add) ->
  let c := List.length scale in
  List.length bias = c /\ List.length mean = c /\ List.length var = c /\ List.length mul = c /\ List.length add = c /\
  forall i x, (i < c)%nat -> 0 < nth i var 0 + eps /\
    nth i mul 0 * x + nth i add 0 = nth i scale 0 * ((x - nth i mean 0) / sqrt (nth i var 0 + eps)) + nth i bias 0.
Proof.
  intros H c. unfold fold_batchnorm in H. fold c in H.
  destruct (_ && _ && _)%bool eqn:E; [|discriminate]. cbn [negb] in H. rewrite !andb_true_iff, !Nat.eqb_eq in E. destruct E as [[E1 E2] E3].
  destruct (forallb _ var) eqn:F; [|discriminate]. injection H as <- <-. rewrite !map_length, !seq_length. do 5 (split; [auto|]).
  intros i x Hi. rewrite forallb_forall in F.
  assert (P : 0 < nth i var 0 + eps).
  { assert (Hv : (i < List.length var)%nat) by (rewrite E3; exact Hi). specialize (F (nth i var 0) (nth_In _ _ Hv)). destruct (Rlt_dec 0 (nth i var 0 + eps)); [assumption|discriminate]. }
  split; [exact P|]. apply sqrt_lt_R0 in P.
  assert (N : forall (f : nat -> R), nth i (map f (seq 0 c)) 0 = f i).
  { intros f. rewrite (nth_indep _ 0 (f 0%nat)) by (rewrite map_length, seq_length; exact Hi). rewrite map_nth, seq_nth by exact Hi. reflexivity. }
  rewrite !N. field. lra.
Qed.
Lemma fold_fails eps scale bias mean var : fold_batchnorm eps scale bias mean var = None <->
  List.length bias <> List.length scale \/ List.length mean <> List.length scale \/ List.length var <> List.length scale \/
  exists v, In v var /\ v + eps <= 0.
Proof.
  unfold fold_batchnorm. destruct (_ && _ && _)%bool eqn:E; cbn [negb].
  - rewrite !andb_true_iff, !Nat.eqb_eq in E. destruct E as [[E1 E2] E3]. destruct (forallb _ var) eqn:F.
    + split; [discriminate|]. intros [G|[G|[G|(v & Hv & Hle)]]]; try contradiction. rewrite forallb_forall in F. specialize (F v Hv).
      destruct (Rlt_dec 0 (v + eps)); [lra|discriminate].
    + split; [intros _|reflexivity]. right. right. right.
      assert (G : existsb (fun v => if Rlt_dec 0 (v + eps) then false else true) var = true).
      { clear - F. induction var as [|v r IH]; cbn in *; [discriminate|]. destruct (Rlt_dec 0 (v + eps)); cbn in *; auto. }
      apply existsb_exists in G. destruct G as (v & Hv & G). exists v. split; [exact Hv|]. destruct (Rlt_dec _ _); [discriminate|lra].
  - split; [intros _|reflexivity]. rewrite !andb_false_iff, !Nat.eqb_neq in E. tauto.
Qed.

(** ** The rewritten power *)
Lemma sqrt_half x : 0 < x -> Rpower x (1 / 2) = sqrt x.
Proof. intros H. replace (1 / 2) with (/ 2) by lra. apply Rpower_sqrt, H. Qed.
Lemma sqrt_close es x : becomes_sqrt es = true -> 0 < x ->
  exists e, es = [e] /\ Rabs (ln (Rpower x e) - ln (sqrt x)) <= / 10 ^ 9 * Rabs (ln x).
Proof.
  unfold becomes_sqrt. destruct es as [|e [|]]; try discriminate. destruct (Rlt_dec _ _) as [L|]; [|discriminate]. intros _ Hx.
  exists e. split; [reflexivity|]. rewrite <- (sqrt_half x Hx). unfold Rpower. rewrite !ln_exp.
  replace (e * ln x - 1 / 2 * ln x) with ((e - 1 / 2) * ln x) by lra. rewrite Rabs_mult.
  apply Rmult_le_compat_r; [apply Rabs_pos|left; exact L].
Qed.
Lemma sqrt_never e : becomes_sqrt [e] = true -> e <> 1 / 2 -> forall x, 0 < x -> Rpower x e = sqrt x -> x = 1.
Proof.
  intros _ Ne x Hx E. rewrite <- (sqrt_half x Hx) in E. unfold Rpower in E. apply exp_inv in E.
  assert (Z : (e - 1 / 2) * ln x = 0) by lra. apply Rmult_integral in Z. destruct Z as [Z|Z]; [lra|].
  rewrite <- ln_1 in Z. apply ln_inv in Z; lra.
Qed.
Lemma sqrt_near : becomes_sqrt [1 / 2 + / 10 ^ 10] = true.
Proof.
  unfold becomes_sqrt. destruct (Rlt_dec _ _) as [|N]; [reflexivity|]. exfalso. apply N.
  replace (1 / 2 + / 10 ^ 10 - 1 / 2) with (/ 10 ^ 10) by lra. rewrite Rabs_right by (left; apply Rinv_0_lt_compat, pow_lt; lra).
  apply Rinv_lt_contravar; [apply Rmult_lt_0_compat; apply pow_lt; lra|]. cbn. lra.
Qed.
