(** The constraints of GridSample. *)
From Coq Require Import List Arith Bool ZArith Znumtheory Lia.
From Verif Require Base.Array Proofs.GkrComplete.
From Verif Require Import Spec.Numbers Spec.Shapes Spec.Tensors Spec.HonestProver Spec.Selection Spec.GridSample
  Model.Builder Model.Gadgets Model.Selection Model.DataMovement Model.GridSample Model.GridSampleCircuit
  Proofs.Builder Proofs.RangeCheck Proofs.Gadgets Proofs.Division Proofs.Layers Proofs.Layers2 Proofs.HonestRun Proofs.Rescale Proofs.Activations1
  Proofs.Tensors Proofs.DataMovement.
Import Spec.Shapes ListNotations.
Local Open Scope Z_scope.

(** *** Positions *)
Lemma nth_error_prod {A B} (l' : list B) : forall (l : list A) i j, (j < length l')%nat ->
  nth_error (list_prod l l') (i * length l' + j) =
  match nth_error l i, nth_error l' j with Some a, Some b => Some (a, b) | _, _ => None end.
Proof.
  induction l as [|a l IH]; intros i j Hj; cbn [list_prod].
  - destruct (i * length l' + j)%nat, i; reflexivity.
  - destruct i as [|i].
    + cbn [Nat.mul Nat.add nth_error]. rewrite nth_error_app1 by (rewrite map_length; auto). rewrite nth_error_map.
      destruct (nth_error l' j); reflexivity.
    + rewrite nth_error_app2 by (rewrite map_length; cbn; lia). rewrite map_length.
      replace (S i * length l' + j - length l')%nat with (i * length l' + j)%nat by (cbn; lia). now apply IH.
Qed.
Lemma positions_nth n c h w b ch i j : (b < n)%nat -> (ch < c)%nat -> (i < h)%nat -> (j < w)%nat ->
  nth_error (positions n c h w) (row_major [b; ch; i; j] [n; c; h; w]) = Some (b, ch, i, j).
Proof.
  intros. replace (row_major [b; ch; i; j] [n; c; h; w]) with (((b * c + ch) * h + i) * w + j)%nat by (unfold row_major; cbn; lia).
  assert (E : forall n i, (i < n)%nat -> nth_error (seq 0 n) i = Some i).
  { intros n0 i0 Hi0. rewrite (nth_error_nth' _ 0%nat) by (rewrite seq_length; auto). now rewrite seq_nth. }
  unfold positions.
  replace (((b * c + ch) * h + i) * w + j)%nat with (((b * length (seq 0 c) + ch) * length (seq 0 h) + i) * length (seq 0 w) + j)%nat
    by now rewrite !seq_length.
  rewrite !nth_error_prod by (rewrite seq_length; auto). now rewrite !E.
Qed.
Lemma positions_length n c h w : length (positions n c h w) = prod [n; c; h; w].
Proof. unfold positions. rewrite !prod_length, !seq_length. unfold prod. cbn [fold_right]. lia. Qed.
Lemma positions_in n c h w b ch i j : In (b, ch, i, j) (positions n c h w) -> (b < n /\ ch < c /\ i < h /\ j < w)%nat.
Proof. unfold positions. rewrite !in_prod_iff, !in_seq. lia. Qed.

Section S.
Variable p : Z.
Hypothesis Hprime : prime p.
Variable c : nat.
Hypothesis Hc : (0 < c)%nat.
Variable F : nat -> list (list Z).
Notation acc := (accepts p (table_rows c F)).
Variables kappa nb : nat.
Hypothesis Hk : width_ok c kappa.
Hypothesis Hn : width_ok c nb.

Definition dot (xs ws : list Z) : Z := fold_right (fun xw s => fst xw * snd xw + s) 0 (combine xs ws).
Lemma sum_enc xs : forall ws s, fold_left (fun s xw => add p s (mul p (fst xw) (snd xw))) (combine (map (enc p) xs) (map (const p) ws)) (enc p s) =
  enc p (s + dot xs ws).
Proof.
  unfold dot. induction xs as [|x xs IH]; intros [|w ws] s; cbn [map combine fold_left fold_right fst snd]; rewrite ?Z.add_0_r; auto.
  encs. rewrite IH. f_equal. lia.
Qed.
Lemma half_lt : 0 <= pow2 kappa / 2 < pow2 kappa.
Proof. pose proof (pow2_pos kappa). split; [apply Z.div_pos; lia|apply Z.div_lt; lia]. Qed.

(** Whatever the inputs, any value of nb bits is accepted. *)
Lemma dynamic_any ins y : pow2 (rounded c kappa) <= p -> pow2 (rounded c nb) <= p -> 0 <= y < pow2 nb ->
  acc (dynamic_element p c kappa nb ins) y.
Proof.
  intros P1 P2 Hy. pose proof (prime_ge_2 _ Hprime). pose proof (pow2_le _ _ (rounded_ge c nb)). pose proof half_lt.
  pose proof (pow2_le _ _ (rounded_ge c kappa)). pose proof (pow2_pos kappa).
  unfold dynamic_element. apply accepts_bind. exists [y; y; 0; 0; 0; const p (pow2 kappa); 0; 0; 0].
  split.
  - unfold hintn. cbn [accepts]. exists [y; y; 0; 0; 0; const p (pow2 kappa); 0; 0; 0]. split; [reflexivity|]. split; [|reflexivity].
    assert (0 <= const p (pow2 kappa) < p) by (apply Z.mod_pos_bound; lia).
    repeat (constructor; [lia|]). constructor.
  - cbn [skipn firstn nth]. unfold check_interpolation.
    replace y with (enc p y) by (apply enc_id; lia).
    pose proof (sum_enc [y; 0; 0; 0] [pow2 kappa; 0; 0; 0] 0) as E. cbn [map] in E.
    change (enc p 0) with (const p 0) in E at 4.
    assert (Z0 : enc p 0 = 0) by (apply enc_id; lia). assert (Z1 : const p 0 = 0) by exact Z0.
    rewrite Z0, Z1 in E. rewrite Z1. rewrite E. cbv [dot combine fold_right fst snd]. rewrite ?Z.mul_0_l, ?Z.add_0_r, ?Z.add_0_l.
    encs. replace (y * pow2 kappa + pow2 kappa / 2 - y * pow2 kappa) with (pow2 kappa / 2) by lia.
    g_unit; [apply rc_int; auto; [lia|unfold rci; lia]|].
    g_unit; [apply rc_int; auto; [lia|unfold rci; lia]|]. apply accepts_ret. reflexivity.
Qed.
(** No value outside the widths of the range check is. *)
Lemma dynamic_range ins y : pow2 nb <= p -> (nb mod c = 0)%nat -> acc (dynamic_element p c kappa nb ins) y -> 0 <= y < pow2 nb.
Proof.
  intros P2 M H. unfold dynamic_element in H. apply accepts_bind in H as (o & Ho & H). unfold hintn in Ho. cbn [accepts] in Ho.
  destruct Ho as (o' & L & R & ->). unfold check_interpolation in H. a_rc H H1. a_rc H H2. apply accepts_ret in H. subst y.
  destruct o as [|y o]; [discriminate|]. inversion R; subst. cbn [nth] in *.
  apply range_check_exact in H2; auto; lia.
Qed.

Section Bilinear.
Hypothesis Mk : (kappa mod c = 0)%nat.
Hypothesis Mn : (nb mod c = 0)%nat.
Hypothesis Hbig : 16 * (pow2 nb * pow2 kappa) <= p.

Lemma bilinear_iff xs ws y : Z.abs (dot xs ws) <= 4 * (pow2 nb * pow2 kappa) ->
  acc (bilinear_element p c kappa nb (map (enc p) xs) ws) y <->
  let r := (dot xs ws + pow2 kappa / 2) / pow2 kappa in 0 <= r < pow2 nb /\ y = enc p r.
Proof.
  intros B. pose proof (prime_ge_2 _ Hprime). pose proof half_lt. pose proof (pow2_pos kappa) as PK. pose proof (pow2_pos nb) as PN.
  set (S := dot xs ws) in *. set (K := pow2 kappa) in *. set (N := pow2 nb) in *.
  assert (RK : pow2 (rounded c kappa) = K) by (now rewrite (rounded_exact c kappa Mk)).
  assert (RN : pow2 (rounded c nb) = N) by (now rewrite (rounded_exact c nb Mn)).
  assert (KN : K <= N * K) by nia. assert (NK : N <= N * K) by nia.
  assert (CY : forall Y, 0 <= Y < N -> acc (range_check p c (enc p (S + K / 2 - Y * K)) kappa) tt <-> 0 <= S + K / 2 - Y * K < K).
  { intros Y HY. assert (0 <= Y * K <= N * K) by nia. rewrite rc_int; auto; rewrite ?RK; fold K; [|lia|lia]. unfold K. apply rci_ex; auto. }
  assert (SW : forall w, fold_left (fun s xw => add p s (mul p (fst xw) (snd xw))) (combine (map (enc p) xs) (map (const p) w)) (const p 0) = enc p (dot xs w)).
  { intros w. change (const p 0) with (enc p 0). now rewrite sum_enc. }
  unfold bilinear_element, check_interpolation. rewrite SW. fold S K. cbv zeta. split.
  - intros H3. a_hint H3 Y HY. a_rc H3 H1. a_rc H3 H2. apply accepts_ret in H3. subst Y.
    apply range_check_exact in H2; auto; try (fold N; lia). fold N in H2.
    rewrite <- (enc_id p y HY) in H1. revert H1. encs. intros H1. apply CY in H1; [|lia].
    assert (E : (S + K / 2) / K = y) by (symmetry; apply (Z.div_unique_pos _ _ y (S + K / 2 - y * K)); lia).
    rewrite E. split; [lia|]. symmetry. now apply enc_id.
  - intros (R & ->). set (r := (S + K / 2) / K) in *. pose proof (Z.div_mod (S + K / 2) K ltac:(lia)) as D. fold r in D.
    pose proof (Z.mod_pos_bound (S + K / 2) K PK). g_hint (enc p r); [apply enc_range; lia|]. encs.
    g_unit; [apply CY; auto; lia|]. g_unit; [apply rc_int; auto; rewrite ?RN; fold N; [lia|lia|]; apply rci_ex; auto|].
    apply accepts_ret. reflexivity.
Qed.
End Bilinear.

(** *** The layer with a computed grid *)
Lemma dynamic_layer_any pad align n ch h w ho wo x g outs :
  pow2 (rounded c kappa) <= p -> pow2 (rounded c nb) <= p ->
  grid_shapes n ch h w ho wo x g -> length outs = prod [n; ch; ho; wo] -> Forall (fun v => 0 <= v < pow2 nb) outs ->
  acc (gridsample_dynamic p c kappa nb pad align [n; ch; ho; wo] x g) {| dims := [n; ch; ho; wo]; flat := outs |}.
Proof.
  intros P1 P2 (Wx & Dx & Wg & Dg) L R. unfold gridsample_dynamic. rewrite Dx. cbv zeta. apply accepts_bind. exists outs.
  split; [|unfold from_shape_vec; rewrite L, Nat.eqb_refl; reflexivity].
  apply accepts_mapM. rewrite <- (positions_length n ch ho wo) in L.
  assert (A : forall q v, In q (positions n ch ho wo) -> 0 <= v < pow2 nb ->
    acc (let '(bn, bc, bh, bw) := q in
      let channel_offset := (bn * ch * (h * w) + bc * (h * w))%nat in
      bind (lift (Array.omap (fun i => Array.aget (flat x) (channel_offset + i)) (seq 0 (h * w)))) (fun channel_data =>
      let sp := (bn * ho * wo + bh * wo + bw)%nat in
      bind (lift (Array.aget (flat g) (sp * 2))) (fun x_norm =>
      bind (lift (Array.aget (flat g) (sp * 2 + 1))) (fun y_norm =>
      dynamic_element p c kappa nb
          ([const p (pow2 kappa); const p (Z.of_nat h); const p (Z.of_nat w); const p (if align then 1 else 0);
            const p (match pad with Zeros => 0 | Border => 1 | Reflection => 2 end)] ++ channel_data ++ [x_norm; y_norm]))))) v).
  { intros (((b & k) & i) & j) v Hq Hv. apply positions_in in Hq as (Hb & Hk' & Hi & Hj). cbv zeta.
    unfold well_formed in Wx, Wg. rewrite Dx in Wx. rewrite Dg in Wg. unfold prod in Wx, Wg. cbn [fold_right] in Wx, Wg.
    assert (BK : (b * ch + k + 1 <= n * ch)%nat) by nia.
    assert (BH : ((b * ho + i) * wo + j + 1 <= n * ho * wo)%nat) by (assert (b * ho + i + 1 <= n * ho)%nat by nia; nia).
    assert (E1 : exists d, Array.omap (fun i => Array.aget (flat x) (b * ch * (h * w) + k * (h * w) + i)) (seq 0 (h * w)) = Some d).
    { apply Proofs.GkrComplete.omap_ex. intros e He. apply in_seq in He. apply nth_error_Some. rewrite Wx. nia. }
    destruct E1 as (d & ->). cbn [lift bind].
    assert (E2 : exists v, Array.aget (flat g) ((b * ho * wo + i * wo + j) * 2) = Some v).
    { destruct (Array.aget (flat g) ((b * ho * wo + i * wo + j) * 2)) eqn:E; eauto. apply nth_error_None in E. rewrite Wg in E. nia. }
    assert (E3 : exists v, Array.aget (flat g) ((b * ho * wo + i * wo + j) * 2 + 1) = Some v).
    { destruct (Array.aget (flat g) ((b * ho * wo + i * wo + j) * 2 + 1)) eqn:E; eauto. apply nth_error_None in E. rewrite Wg in E. nia. }
    destruct E2 as (v2 & ->), E3 as (v3 & ->). cbn [lift bind]. now apply dynamic_any. }
  revert outs L R A. induction (positions n ch ho wo) as [|q l IH]; intros [|v outs] L R A; try discriminate; constructor.
  - apply A; [left; auto|]. now inversion R.
  - apply IH; [now injection L|now inversion R|]. intros q' v' Hq'. apply A. now right.
Qed.
Lemma dynamic_layer_range pad align n ch h w ho wo x g out :
  pow2 nb <= p -> (nb mod c = 0)%nat -> dims x = [n; ch; h; w] ->
  acc (gridsample_dynamic p c kappa nb pad align [n; ch; ho; wo] x g) out ->
  well_formed out /\ dims out = [n; ch; ho; wo] /\ Forall (fun v => 0 <= v < pow2 nb) (flat out).
Proof.
  intros P M Dx H. unfold gridsample_dynamic in H. rewrite Dx in H. cbv zeta in H. apply accepts_bind in H as (o & Ho & H).
  unfold from_shape_vec in H. destruct (Nat.eqb_spec (length o) (prod [n; ch; ho; wo])) as [E|E]; cbn [lift accepts] in H; [subst out|easy].
  split; [exact E|]. split; [reflexivity|]. cbn [flat]. apply accepts_mapM in Ho. clear E.
  induction Ho as [|(((b & k) & i) & j) v l bs A T IH]; constructor; auto.
  apply accepts_bind in A as (d & _ & A). cbv zeta in A. apply accepts_bind in A as (e & _ & A). apply accepts_bind in A as (e' & _ & A).
  eapply dynamic_range; eauto.
Qed.
End S.
