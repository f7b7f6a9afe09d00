(** ConvTranspose: the inverse mapping collects exactly what the image spreads. *)
From Coq Require Import List Arith Bool ZArith Znumtheory Lia.
From Verif Require Model.Builder.
From Verif Require Import Base.Array Spec.Numbers Spec.Shapes Spec.Tensors Spec.Selection Spec.Conv Spec.ConvTranspose
  Model.Shapes Model.DataMovement Model.ConvTranspose Proofs.Shapes Proofs.Tensors Proofs.Conv Proofs.Conv2.
From Verif Require Proofs.Selection.
Import ListNotations.
Local Open Scope Z_scope.

Lemma inverse_some o before k s d i : (0 < s)%nat -> inverse_map o before k 1 s d = Some i -> (i < d)%nat /\ (i * s + k = o + before)%nat.
Proof.
  intros Hs. unfold inverse_map. rewrite Nat.mul_1_r. destruct (Z.ltb_spec (Z.of_nat o + Z.of_nat before - Z.of_nat k) 0); [discriminate|]. cbn [orb].
  replace (Z.to_nat _) with (o + before - k)%nat by lia.
  destruct (Nat.eqb_spec ((o + before - k) mod s) 0) as [M|]; [|discriminate]. cbn [negb].
  destruct (Nat.leb_spec d ((o + before - k) / s)); [discriminate|]. intros Q. injection Q as <-. split; auto.
  pose proof (Nat.div_mod (o + before - k) s ltac:(lia)). rewrite (Nat.mul_comm (_ / _)). lia.
Qed.
Lemma inverse_none o before k s d r : (0 < s)%nat -> inverse_map o before k 1 s d = None -> (r < d)%nat -> (r * s + k <> o + before)%nat.
Proof.
  intros Hs. unfold inverse_map. rewrite Nat.mul_1_r. destruct (Z.ltb_spec (Z.of_nat o + Z.of_nat before - Z.of_nat k) 0); [lia|]. cbn [orb].
  replace (Z.to_nat _) with (o + before - k)%nat by lia. intros Q Hr E.
  replace (o + before - k)%nat with (r * s)%nat in Q by lia. rewrite Nat.mod_mul, Nat.div_mul in Q by lia. cbn [Nat.eqb negb] in Q.
  destruct (Nat.leb_spec d r); [lia|discriminate].
Qed.
Lemma sum_single d f i : (i < d)%nat -> (forall r, (r < d)%nat -> r <> i -> f r = 0) -> sum_to d f = f i.
Proof.
  intros Hi Z0. rewrite <- (sum_part f d i 1) by (lia || (intros r H1 H2; apply Z0; lia)). unfold sumZ. cbn. lia.
Qed.
Lemma sum_inverse o before k s d (f : nat -> Z) : (0 < s)%nat ->
  sum_to d (fun r => if (r * s + k =? o + before)%nat then f r else 0) =
  match inverse_map o before k 1 s d with Some r => f r | None => 0 end.
Proof.
  intros Hs. destruct (inverse_map o before k 1 s d) as [i|] eqn:E.
  - destruct (inverse_some _ _ _ _ _ _ Hs E) as (Hi & Q). rewrite (sum_single d _ i); auto.
    + now rewrite (proj2 (Nat.eqb_eq _ _) Q).
    + intros r Hr N. destruct (Nat.eqb_spec (r * s + k) (o + before)); [nia|reflexivity].
  - apply sum_to_zero. intros r Hr. rewrite (proj2 (Nat.eqb_neq _ _)); auto. exact (inverse_none _ _ _ _ _ _ Hs E Hr).
Qed.
Lemma sum_if (c : bool) d f : sum_to d (fun q => if c then f q else 0) = if c then sum_to d f else 0.
Proof. destruct c; [reflexivity|]. now apply sum_to_zero. Qed.

(** A loop that adds [f i] at [i] adds their sum *)
Lemma for_sum p (step : nat -> Z -> option Z) (f : nat -> Z) n :
  (forall i z, (i < n)%nat -> step i (enc p z) = Some (enc p (z + f i))) ->
  forall z, for_in (seq 0 n) step (enc p z) = Some (enc p (z + sum_to n f)).
Proof.
  intros H. enough (G : forall l k z, (k + l <= n)%nat -> for_in (seq k l) step (enc p z) = Some (enc p (z + sumZ (map f (seq k l))))).
  { intros z. apply (G n 0%nat z). lia. }
  induction l as [|l IH]; intros k z Hk; cbn [seq for_in map].
  - do 2 f_equal. unfold sumZ. cbn. lia.
  - rewrite H by lia. cbn [obind]. rewrite IH by lia. do 2 f_equal. unfold sumZ. cbn [fold_right]. lia.
Qed.
Lemma elem_plane p (t : tensor Z) d0 d1 d2 d3 n c i j : well_formed t -> dims t = [d0; d1; d2; d3] ->
  (n < d0)%nat -> (c < d1)%nat -> (i < d2)%nat -> (j < d3)%nat ->
  elem (encoded p t) [n; c; i; j] = Some (enc p (plane t n c (Z.of_nat i) (Z.of_nat j))).
Proof.
  intros W D H0 H1 H2 H3. rewrite Selection.encoded_elem. destruct (elem_exists t [n; c; i; j] W) as (v & E).
  { rewrite D. repeat constructor; auto. }
  rewrite E. cbn [option_map]. unfold plane. rewrite !(proj2 (Z.leb_le _ _)) by lia. cbn [andb]. now rewrite !Nat2Z.id, E.
Qed.

Section L.
Variable p : Z.
Variables x w b : tensor Z.
Variables N C H V M kh kw eh ew : nat.
Variable g : geometry.
Hypothesis WX : well_formed x.
Hypothesis WW : well_formed w.
Hypothesis DX : dims x = [N; C; H; V].
Hypothesis DW : dims w = [C; M; kh; kw].
Hypothesis H0 : (0 < H)%nat.
Hypothesis V0 : (0 < V)%nat.
Hypothesis KH : (0 < kh)%nat.
Hypothesis KW : (0 < kw)%nat.
Hypothesis S0 : (0 < down g)%nat.
Hypothesis S1 : (0 < across g)%nat.
Hypothesis O0 : (0 < spread H kh (top g) (bottom g) (down g) eh)%nat.
Hypothesis O1 : (0 < spread V kw (left g) (right g) (across g) ew)%nat.
Hypothesis B : flat b = [] \/ dims b = [M] /\ length (flat b) = M.

Let out_h := spread H kh (top g) (bottom g) (down g) eh.
Let out_w := spread V kw (left g) (right g) (across g) ew.
Definition tvalue (k : nat * nat * nat * nat) : Z := let '(n, m, i, j) := k in transposed_at g C H V kh kw x w (bias_of b) n m i j.

Lemma ct_initial_enc m : (m < M)%nat -> ct_initial p (encoded p b) m = Some (enc p (bias_of b m)).
Proof.
  intros Hm. unfold ct_initial, bias_of. destruct B as [E|(D & L)].
  - cbn [encoded flat]. rewrite E. cbn [map]. now destruct m.
  - assert (EL : elem (encoded p b) [m] = Some (enc p (nth m (flat b) 0))).
    { rewrite Selection.encoded_elem. rewrite elem_in by (rewrite D; repeat constructor; auto). rewrite D.
      replace (row_major [m] [M]) with m by (unfold row_major; cbn; lia).
      rewrite (nth_error_nth' _ 0) by lia. reflexivity. }
    destruct (flat (encoded p b)) as [|z l] eqn:F; [|exact EL].
    cbn [encoded flat] in F. apply (f_equal (@length Z)) in F. rewrite map_length in F. cbn in F. lia.
Qed.
Lemma spread_ct d k before after s extra : (0 < d)%nat -> (0 < k)%nat -> (0 < spread d k before after s extra)%nat ->
  ct_out s d k 1 extra before after = Z.of_nat (spread d k before after s extra).
Proof. unfold spread, ct_out. intros A K G. rewrite Nat2Z.inj_sub, !Nat2Z.inj_add, Nat2Z.inj_mul, Nat2Z.inj_sub by lia. lia. Qed.

Definition ct_cell : nat * nat * nat * nat -> option Z := fun o => let '(n, oc, oh, ow) := o in
    let* start := ct_initial p (encoded p b) oc in
    for_in (seq 0 C) (fun ci acc =>
      for_in (seq 0 kh) (fun ki_h acc =>
        match inverse_map oh (top g) ki_h 1 (down g) H with
        | None => Some acc
        | Some ih =>
          for_in (seq 0 kw) (fun ki_w acc =>
            match inverse_map ow (left g) ki_w 1 (across g) V with
            | None => Some acc
            | Some iw =>
              let* a := elem (encoded p x) [n; ci; ih; iw] in
              let* b := elem (encoded p w) [ci; oc; ki_h; ki_w] in
              Some (Builder.add p acc (Builder.mul p a b))
            end) acc
        end) acc) start.
Lemma ct_cell_value k : In k (coords4 N M out_h out_w) -> ct_cell k = Some (enc p (tvalue k)).
Proof.
  destruct k as (((n, m), i), j). rewrite in_coords4. intros (Hn & Hm & Hi & Hj). unfold ct_cell, tvalue, transposed_at.
  rewrite ct_initial_enc by auto. cbn [obind]. apply for_sum. intros ci z Hc. apply for_sum. clear z. intros a z Ha.
  assert (R : sum_to kw (fun e => sum_to H (fun r => sum_to V (fun q =>
      if (r * down g + a =? i + top g)%nat && (q * across g + e =? j + left g)%nat
      then plane x n ci (Z.of_nat r) (Z.of_nat q) * plane w ci m (Z.of_nat a) (Z.of_nat e) else 0))) =
    sum_to kw (fun e => match inverse_map i (top g) a 1 (down g) H with Some r =>
      match inverse_map j (left g) e 1 (across g) V with Some q =>
        plane x n ci (Z.of_nat r) (Z.of_nat q) * plane w ci m (Z.of_nat a) (Z.of_nat e) | None => 0 end | None => 0 end)).
  { apply sum_to_ext. intros e _.
    rewrite <- (sum_inverse i (top g) a (down g) H (fun r => match inverse_map j (left g) e 1 (across g) V with Some q =>
        plane x n ci (Z.of_nat r) (Z.of_nat q) * plane w ci m (Z.of_nat a) (Z.of_nat e) | None => 0 end)) by auto.
    apply sum_to_ext. intros r _. destruct (r * down g + a =? i + top g)%nat; cbn [andb].
    - apply (sum_inverse j (left g) e (across g) V (fun q => plane x n ci (Z.of_nat r) (Z.of_nat q) * plane w ci m (Z.of_nat a) (Z.of_nat e))). auto.
    - now apply sum_to_zero. }
  rewrite R. clear R. destruct (inverse_map i (top g) a 1 (down g) H) as [r|] eqn:E.
  - apply inverse_some in E as (Hr & _); auto. apply for_sum. clear z. intros e z He.
    destruct (inverse_map j (left g) e 1 (across g) V) as [q|] eqn:E.
    + apply inverse_some in E as (Hq & _); auto.
      rewrite (elem_plane p x N C H V) by auto. rewrite (elem_plane p w C M kh kw) by auto. cbn [obind].
      now rewrite Selection.enc_mul, Selection.enc_add.
    + do 2 f_equal. lia.
  - rewrite sum_to_zero by auto. do 2 f_equal. lia.
Qed.
Lemma transposed_flat y : well_formed y -> transposed g eh ew x w b y ->
  dims y = [N; M; out_h; out_w] /\ flat y = map tvalue (coords4 N M out_h out_w).
Proof.
  intros WY (n & ch & h & v & m & k1 & k2 & D1 & D2 & D & E). rewrite DX in D1. rewrite DW in D2.
  injection D1 as <- <- <- <-. injection D2 as <- <- <-. split; auto. now apply (flat4 y N M out_h out_w).
Qed.
Definition ct_P : ct_params := {| ct_kernel := [kh; kw]; ct_strides := [down g; across g]; ct_pads := [top g; left g; bottom g; right g];
  ct_output_padding := [eh; ew]; ct_dilation := [1; 1]%nat; ct_group := 1%nat |}.
Lemma ct_build_eq a : ct_attributes a g eh ew w -> ct_build a = Some ct_P.
Proof.
  unfold ct_P. intros (E1 & E2 & E3 & E4 & E5 & E6 & E7). rewrite DW in E1. cbn [skipn] in E1. unfold ct_build. rewrite E1. cbn [obind length Nat.eqb guard].
  cbn [existsb]. destruct kh as [|kh']; [lia|]. destruct kw as [|kw']; [lia|]. cbn [Nat.eqb orb negb guard obind].
  assert (Q : or_else (group_attr a) 1%nat = 1%nat) by (destruct E6 as [->|(-> & _)]; reflexivity). rewrite Q. cbn [Nat.eqb guard obind].
  replace (or_else (dilations_attr a) (repeat 1%nat 2)) with [1; 1]%nat by (destruct E5 as [->|(-> & _)]; reflexivity).
  replace (or_else (strides_attr a) (repeat 1%nat 2)) with [down g; across g] by (destruct E2 as [->|(-> & E2)]; [reflexivity|now rewrite E2]).
  replace (or_else (pads_attr a) (repeat 0%nat (2 * 2))) with [top g; left g; bottom g; right g] by (destruct E3 as [->|(-> & E3)]; [reflexivity|now rewrite E3]).
  replace (or_else (output_padding_attr a) (repeat 0%nat 2)) with [eh; ew] by (destruct E4 as [->|(-> & E4)]; [reflexivity|now rewrite E4]).
  cbn [length forallb existsb Nat.eqb andb guard obind].
  destruct (down g) as [|dg]; [lia|]. destruct (across g) as [|ag]; [lia|]. reflexivity.
Qed.
Lemma ct_sums_eq y : well_formed y -> transposed g eh ew x w b y -> ct_sums p ct_P (encoded p x) (encoded p w) (encoded p b) = Some (encoded p y).
Proof.
  intros WY TY. destruct (transposed_flat y WY TY) as (D & F). unfold ct_sums.
  change (dims (encoded p x)) with (dims x). change (dims (encoded p w)) with (dims w). rewrite DX, DW.
  cbn [length Nat.eqb guard obind aget nth_error ct_P ct_kernel ct_strides ct_pads ct_output_padding ct_dilation ct_group].
  rewrite !Nat.eqb_refl. cbn [andb guard obind]. rewrite !spread_ct by auto. fold out_h out_w.
  rewrite !(proj2 (Z.leb_gt _ _)) by (unfold out_h, out_w; lia). cbn [orb negb guard obind]. rewrite !Nat2Z.id, Nat.mul_1_r.
  match goal with |- obind ?o _ = _ => assert (Q : o = Some tt) end.
  { destruct B as [E|(DB & L)]; [cbn [encoded flat]; now rewrite E|]. destruct (flat (encoded p b)); [reflexivity|].
    change (dims (encoded p b)) with (dims b). rewrite DB. cbn [length Nat.eqb guard obind aget nth_error]. now rewrite Nat.eqb_refl. }
  rewrite Q. cbn [obind]. clear Q. fold ct_cell. fold (coords4 N M out_h out_w).
  rewrite (omap_map ct_cell (fun k => enc p (tvalue k))) by apply ct_cell_value. cbn [obind].
  unfold from_shape_vec. rewrite (proj2 (Nat.eqb_eq _ _)) by (rewrite map_length, coords4_length; unfold prod; cbn [fold_right]; lia).
  unfold encoded. now rewrite D, F, map_map.
Qed.
Lemma infer_ct_eq a : ct_attributes a g eh ew w -> infer_conv_transpose a (dims x) (dims w) = Some [N; M; out_h; out_w].
Proof.
  intros (E1 & E2 & E3 & E4 & E5 & E6 & E7). rewrite DW in E1. cbn [skipn] in E1. rewrite DX, DW. unfold infer_conv_transpose. rewrite E1, E7.
  assert (Q : or_else (group_attr a) 1%nat = 1%nat) by (destruct E6 as [->|(-> & _)]; reflexivity). rewrite Q.
  cbn [or_else length Nat.leb skipn].
  replace (or_else (dilations_attr a) (repeat 1%nat 2)) with [1; 1]%nat by (destruct E5 as [->|(-> & _)]; reflexivity).
  replace (or_else (strides_attr a) (repeat 1%nat 2)) with [down g; across g] by (destruct E2 as [->|(-> & E2)]; [reflexivity|now rewrite E2]).
  replace (or_else (pads_attr a) (repeat 0%nat (2 * 2))) with [top g; left g; bottom g; right g] by (destruct E3 as [->|(-> & E3)]; [reflexivity|now rewrite E3]).
  replace (or_else (output_padding_attr a) (repeat 0%nat 2)) with [eh; ew] by (destruct E4 as [->|(-> & E4)]; [reflexivity|now rewrite E4]).
  match goal with |- context [omap ?f _] => set (G := f) end.
  cbn [guard obind aget nth_error Nat.eqb negb length Nat.leb Nat.add orb seq omap].
  unfold G. cbn [length Nat.leb Nat.mul Nat.add aget nth_error obind nth].
  rewrite !(proj2 (Nat.eqb_neq _ _)) by lia. cbn [guard obind negb]. rewrite !Nat.mul_1_r, !Nat.sub_add by lia.
  assert (Z0 : forall s d k bf af ex, (0 < d)%nat -> (0 < spread d k bf af s ex)%nat ->
    Z.of_nat s * (Z.of_nat d - 1) + Z.of_nat k - Z.of_nat (bf + af) + Z.of_nat ex = Z.of_nat (spread d k bf af s ex)).
  { unfold spread. intros s d k bf af ex A G'. rewrite Nat2Z.inj_sub, !Nat2Z.inj_add, Nat2Z.inj_mul, Nat2Z.inj_sub by lia. lia. }
  rewrite !Z0 by auto. fold out_h out_w. rewrite !(proj2 (Z.leb_gt _ _)) by (unfold out_h, out_w; lia). cbn [guard obind negb].
  now rewrite !Nat2Z.id.
Qed.
End L.
