(** The Conv layer. *)
From Coq Require Import List Arith Bool ZArith Znumtheory Lia.
From Verif Require Model.Builder.
From Verif Require Import Base.Array Spec.Numbers Spec.Shapes Spec.Tensors Spec.Selection Spec.Conv
  Model.Shapes Model.DataMovement Model.Conv Proofs.Shapes Proofs.Tensors Proofs.Conv.
From Verif Require Proofs.Selection.
Import ListNotations.
Local Open Scope Z_scope.

Lemma omap_some_map {A B} (f : A -> option B) (g : A -> B) l out : omap f l = Some out ->
  (forall a v, In a l -> f a = Some v -> v = g a) -> out = map g l.
Proof.
  revert out. induction l as [|a l IH]; intros out; cbn [omap map].
  - congruence.
  - destruct (f a) as [b|] eqn:E; [|discriminate]. cbn [obind]. destruct (omap f l) as [bs|]; [|discriminate]. cbn [obind].
    intros Q HH. injection Q as <-. f_equal; [apply (HH a b); auto; now left|]. apply IH; auto. intros; apply HH; auto. now right.
Qed.
Definition coords4 (a b c d : nat) : list (nat * nat * nat * nat) :=
  list_prod (list_prod (list_prod (seq 0 a) (seq 0 b)) (seq 0 c)) (seq 0 d).
Lemma coords4_length a b c d : length (coords4 a b c d) = (a * b * c * d)%nat.
Proof. unfold coords4. now rewrite !prod_length, !seq_length. Qed.
Lemma in_coords4 a b c d n m h v : In (n, m, h, v) (coords4 a b c d) <-> (n < a /\ m < b /\ h < c /\ v < d)%nat.
Proof. unfold coords4. rewrite !in_prod_iff, !in_seq. lia. Qed.
Lemma nth_error_seq0 i n : (i < n)%nat -> nth_error (seq 0 n) i = Some i.
Proof. intros Hi. rewrite (nth_error_nth' _ 0%nat) by now rewrite seq_length. now rewrite seq_nth. Qed.
Lemma flat4 (y : tensor Z) a b c d f : well_formed y -> dims y = [a; b; c; d] ->
  (forall n m h v, in_range [n; m; h; v] (dims y) -> elem y [n; m; h; v] = Some (f n m h v)) ->
  flat y = map (fun k : nat * nat * nat * nat => let '(n, m, h, v) := k in f n m h v) (coords4 a b c d).
Proof.
  intros W D E. assert (L : length (flat y) = (a * b * c * d)%nat).
  { rewrite W, D. unfold prod. cbn [fold_right]. lia. }
  apply nth_error_ext'. intros i. destruct (Nat.lt_ge_cases i (a * b * c * d)) as [Hi|Hi].
  2:{ rewrite !(proj2 (nth_error_None _ _)); auto; rewrite ?map_length, ?coords4_length; lia. }
  assert (Hd : (d <> 0)%nat) by (intros ->; lia).
  assert (Hc : (c <> 0)%nat) by (intros ->; lia).
  assert (Hb : (b <> 0)%nat) by (intros ->; lia).
  set (v := (i mod d)%nat). set (i1 := (i / d)%nat). set (h := (i1 mod c)%nat). set (i2 := (i1 / c)%nat).
  set (m := (i2 mod b)%nat). set (n := (i2 / b)%nat).
  assert (E0 : i = (i1 * d + v)%nat) by (unfold i1, v; pose proof (Nat.div_mod i d Hd); lia).
  assert (E1 : i1 = (i2 * c + h)%nat) by (unfold i2, h; pose proof (Nat.div_mod i1 c Hc); lia).
  assert (E2 : i2 = (n * b + m)%nat) by (unfold n, m; pose proof (Nat.div_mod i2 b Hb); lia).
  assert (Hv : (v < d)%nat) by (apply Nat.mod_upper_bound; auto).
  assert (Hh : (h < c)%nat) by (apply Nat.mod_upper_bound; auto).
  assert (Hm : (m < b)%nat) by (apply Nat.mod_upper_bound; auto).
  assert (B1 : (i1 < a * b * c)%nat) by (apply Nat.div_lt_upper_bound; lia).
  assert (B2 : (i2 < a * b)%nat) by (apply Nat.div_lt_upper_bound; lia).
  assert (Hn : (n < a)%nat) by (apply Nat.div_lt_upper_bound; lia).
  clearbody v i1 h i2 m n.
  assert (R : in_range [n; m; h; v] (dims y)) by (rewrite D; repeat constructor; auto).
  specialize (E _ _ _ _ R). rewrite elem_in in E by auto.
  replace (row_major [n; m; h; v] (dims y)) with i in E
    by (rewrite D; unfold row_major; cbn [combine fold_left fst snd]; lia).
  rewrite E. rewrite nth_error_map. unfold coords4.
  pose proof (nth_error_list_prod (list_prod (list_prod (seq 0 a) (seq 0 b)) (seq 0 c)) (seq 0 d) i1 v) as T.
  rewrite seq_length in T. specialize (T Hv). rewrite <- E0 in T. rewrite T.
  pose proof (nth_error_list_prod (list_prod (seq 0 a) (seq 0 b)) (seq 0 c) i2 h) as T1.
  rewrite seq_length in T1. specialize (T1 Hh). rewrite <- E1 in T1. rewrite T1.
  pose proof (nth_error_list_prod (seq 0 a) (seq 0 b) n m) as T2.
  rewrite seq_length in T2. specialize (T2 Hm). rewrite <- E2 in T2. rewrite T2.
  rewrite !nth_error_seq0 by auto. reflexivity.
Qed.

Section L.
Variable p : Z.
Variables x w b : tensor Z.
Variables N C H V M kh kw : nat.
Variable g : geometry.
Variable P : conv_params.
Hypothesis WX : well_formed x.
Hypothesis WW : well_formed w.
Hypothesis DX : dims x = [N; C; H; V].
Hypothesis DW : dims w = [M; C; kh; kw].
Hypothesis KH : (0 < kh)%nat.
Hypothesis KW : (0 < kw)%nat.
Hypothesis S0 : (0 < down g)%nat.
Hypothesis S1 : (0 < across g)%nat.
Hypothesis B : flat b = [] \/ exists m, dims b = [m] /\ length (flat b) = m /\ hd_error (dims w) = Some m.
Hypothesis PP : attributes P g w.

Lemma initial_enc m : (m < M)%nat -> initial p (encoded p b) M m = Some (enc p (bias_of b m)).
Proof.
  intros Hm. unfold initial. destruct B as [E|(m' & D & L & E)].
  - unfold bias_of. cbn [encoded flat]. rewrite E. cbn [map]. now destruct m.
  - rewrite DW in E. injection E as <-.
    assert (EL : elem (encoded p b) [m] = Some (enc p (nth m (flat b) 0))).
    { rewrite Selection.encoded_elem. rewrite elem_in by (rewrite D; repeat constructor; auto). rewrite D.
      replace (row_major [m] [M]) with m by (unfold row_major; cbn; lia).
      rewrite (nth_error_nth' _ 0) by lia. reflexivity. }
    destruct (flat (encoded p b)) as [|z l] eqn:F.
    + cbn [encoded flat] in F. apply (f_equal (@length Z)) in F. rewrite map_length in F. cbn in F. lia.
    + change (dims (encoded p b)) with (dims b). rewrite D. cbn [aget nth_error obind]. rewrite Nat.eqb_refl. cbn [guard obind]. exact EL.
Qed.
Definition ioh (h : nat) : Z := - Z.of_nat (top g) + Z.of_nat h * Z.of_nat (down g).
Definition jow (v : nat) : Z := - Z.of_nat (left g) + Z.of_nat v * Z.of_nat (across g).
Definition h_out : nat := positions H kh (top g) (bottom g) (down g).
Definition w_out : nat := positions V kw (left g) (right g) (across g).
Definition body (n m h v : nat) : nat -> Z -> option Z := fun ch acc =>
  fold_left (fun acc ij => let* a := acc in
        let* s := placement p kh kw H V kh kw (encoded p x) (encoded p w) n m ch (fst ij) (snd ij) in
        Some (Builder.add p s a))
        (list_prod (filter (fun io => (io - - Z.of_nat (top g)) / Z.of_nat (down g) =? Z.of_nat h) (step_by (- Z.of_nat (top g)) (Z.of_nat (h_out * down g)) (down g)))
                   (filter (fun jo => (jo - - Z.of_nat (left g)) / Z.of_nat (across g) =? Z.of_nat v) (step_by (- Z.of_nat (left g)) (Z.of_nat (w_out * across g)) (across g))))
        (Some acc).
Lemma body_step n m h v ch acc : (h < h_out)%nat -> (v < w_out)%nat ->
  body n m h v ch acc = (let* s := placement p kh kw H V kh kw (encoded p x) (encoded p w) n m ch (ioh h) (jow v) in Some (Builder.add p s acc)).
Proof. intros Hh Hv. unfold body. rewrite !steps_at by lia. reflexivity. Qed.

Definition cell_sum (n m h v k l : nat) : Z := sumZ (map (fun ch => window_sum x w kh kw n m ch (ioh h) (jow v)) (seq k l)).
Lemma loop_some n m h v : (n < N)%nat -> (m < M)%nat -> (h < h_out)%nat -> (v < w_out)%nat ->
  forall l k z r, (k + l <= C)%nat -> for_in (seq k l) (body n m h v) (enc p z) = Some r -> r = enc p (z + cell_sum n m h v k l).
Proof.
  intros Hn Hm Hh Hv. induction l as [|l IH]; intros k z r Hk; cbn [seq for_in].
  - intros Q. injection Q as <-. f_equal. unfold cell_sum, sumZ. cbn. lia.
  - rewrite body_step by auto. destruct (Z_le_dec (- Z.of_nat kh) (ioh h)), (Z_le_dec (ioh h) (Z.of_nat H)),
      (Z_le_dec (- Z.of_nat kw) (jow v)), (Z_le_dec (jow v) (Z.of_nat V));
    try (rewrite (placement_out p x w C H V M kh kw DW) by (unfold touches; lia); discriminate).
    rewrite (placement_in p x w N C H V M kh kw) by (auto; unfold touches; lia). cbn [obind]. rewrite Selection.enc_add.
    intros Q. apply IH in Q; [|lia]. subst r. f_equal. unfold cell_sum, sumZ. cbn [seq map fold_right]. lia.
Qed.
Lemma loop_run n m h v : (n < N)%nat -> (m < M)%nat -> (h < h_out)%nat -> (v < w_out)%nat ->
  touches kh H (ioh h) -> touches kw V (jow v) ->
  forall l k z, (k + l <= C)%nat -> for_in (seq k l) (body n m h v) (enc p z) = Some (enc p (z + cell_sum n m h v k l)).
Proof.
  intros Hn Hm Hh Hv T1 T2. induction l as [|l IH]; intros k z Hk; cbn [seq for_in].
  - do 2 f_equal. unfold cell_sum, sumZ. cbn. lia.
  - rewrite body_step by auto. rewrite (placement_in p x w N C H V M kh kw) by (auto; lia). cbn [obind]. rewrite Selection.enc_add.
    rewrite IH by lia. do 2 f_equal. unfold cell_sum, sumZ. cbn [seq map fold_right]. lia.
Qed.
Lemma cell_conv n m h v : bias_of b m + cell_sum n m h v 0 C = conv_at g C kh kw x w (bias_of b) n m h v.
Proof.
  unfold conv_at. f_equal. unfold cell_sum, sum_to. apply sumZ_ext. intros c _. unfold window_sum.
  apply sum_to_ext. intros a _. apply sum_to_ext. intros e _. unfold ioh, jow. do 2 f_equal; lia.
Qed.

Definition cell (k : nat * nat * nat * nat) : option Z :=
  let '(n, nw, hr, wr) := k in
  let* start := initial p (encoded p b) M nw in for_in (seq 0 C) (body n nw hr wr) start.
Lemma conv_shape_4_eq : conv_shape_4 p P (encoded p x) (encoded p w) (encoded p b) =
  (let* out := omap cell (coords4 N M h_out w_out) in from_shape_vec [N; M; h_out; w_out] out).
Proof.
  destruct PP as (E1 & E2 & E3 & E4 & E5). unfold conv_shape_4. rewrite E1, E2, E3.
  change (dims (encoded p x)) with (dims x). change (dims (encoded p w)) with (dims w). rewrite DX, DW.
  cbn [length Nat.ltb Nat.leb negb guard obind forallb skipn aget nth_error].
  rewrite !(proj2 (Nat.eqb_neq _ _)) by lia. cbn [negb andb guard obind]. reflexivity.
Qed.
Definition value (k : nat * nat * nat * nat) : Z := let '(n, m, h, v) := k in conv_at g C kh kw x w (bias_of b) n m h v.
Lemma cell_some k r : In k (coords4 N M h_out w_out) -> cell k = Some r -> r = enc p (value k).
Proof.
  destruct k as (((n, m), h), v). rewrite in_coords4. intros (Hn & Hm & Hh & Hv). unfold cell. rewrite initial_enc by auto. cbn [obind].
  intros Q. apply loop_some in Q; auto. subst r. unfold value. now rewrite cell_conv.
Qed.
Lemma convolved_flat y : well_formed y -> convolved g x w b y ->
  dims y = [N; M; h_out; w_out] /\ flat y = map value (coords4 N M h_out w_out).
Proof.
  intros WY (n & ch & h & v & m & k1 & k2 & D1 & D2 & D3 & E). rewrite DX in D1. rewrite DW in D2.
  injection D1 as <- <- <- <-. injection D2 as <- <- <-.
  assert (D : dims y = [N; M; h_out; w_out]) by (rewrite D3; unfold output_shape; now rewrite DX, DW).
  split; auto. now apply (flat4 y N M h_out w_out).
Qed.
Lemma out_shape out : length out = (N * M * h_out * w_out)%nat -> @from_shape_vec Z [N; M; h_out; w_out] out = Some {| dims := [N; M; h_out; w_out]; flat := out |}.
Proof.
  intros L. unfold from_shape_vec. rewrite (proj2 (Nat.eqb_eq _ _)); auto. rewrite L. unfold prod. cbn [fold_right]. lia.
Qed.
Lemma conv_sums_eq : conv_sums p P (encoded p x) (encoded p w) (encoded p b) = conv_shape_4 p P (encoded p x) (encoded p w) (encoded p b).
Proof.
  destruct PP as (E1 & E2 & E3 & E4 & E5). unfold conv_sums, set_default_params. change (dims (encoded p x)) with (dims x). rewrite DX.
  cbn [length Nat.ltb Nat.leb negb guard obind]. rewrite E1, E2, E3, E4, E5, DW. cbn [length Nat.eqb skipn].
  unfold not_yet_implemented_conv. cbn [length Nat.ltb Nat.leb negb guard obind aget nth_error groups dilations Nat.eqb hd forallb andb].
  rewrite Nat.mod_1_r. cbn [Nat.eqb guard obind].
  replace {| dilations := _; kernel_shape := _; pads := _; strides := _; groups := _ |} with P; [reflexivity|].
  clear - E1 E2 E3 E4 E5 DW. rewrite DW in E1. destruct P. cbn in *. now subst.
Qed.
Lemma conv_sound y t : well_formed y -> convolved g x w b y ->
  conv_sums p P (encoded p x) (encoded p w) (encoded p b) = Some t -> t = encoded p y.
Proof.
  intros WY CY. destruct (convolved_flat y WY CY) as (D & F). rewrite conv_sums_eq, conv_shape_4_eq.
  destruct (omap cell _) as [out|] eqn:E; [|discriminate]. cbn [obind].
  apply (omap_some_map _ (fun k => enc p (value k))) in E; [|intros; now apply cell_some].
  rewrite out_shape by (rewrite E, map_length; apply coords4_length).
  intros Q. injection Q as <-. unfold encoded. rewrite D, F, map_map. now rewrite E.
Qed.
Lemma conv_complete y : well_formed y -> convolved g x w b y -> padding_within_kernel g w ->
  (kh <= H + top g + bottom g)%nat -> (kw <= V + left g + right g)%nat ->
  conv_sums p P (encoded p x) (encoded p w) (encoded p b) = Some (encoded p y).
Proof.
  intros WY CY (m0 & c0 & k1 & k2 & D0 & Pt & Pb & Pl & Pr) Q1 Q2. rewrite DW in D0. injection D0 as <- <- <- <-.
  destruct (convolved_flat y WY CY) as (D & F). rewrite conv_sums_eq, conv_shape_4_eq.
  rewrite (omap_map cell (fun k => enc p (value k))).
  - cbn [obind]. rewrite out_shape by (rewrite map_length; apply coords4_length).
    unfold encoded. now rewrite D, F, map_map.
  - intros (((n, m), h), v). rewrite in_coords4. intros (Hn & Hm & Hh & Hv). unfold cell. rewrite initial_enc by auto. cbn [obind].
    rewrite loop_run; auto.
    + unfold value. now rewrite cell_conv.
    + unfold touches, ioh. unfold h_out, positions in Hh.
      assert (h * down g <= H + top g + bottom g - kh)%nat.
      { pose proof (Nat.mul_div_le (H + top g + bottom g - kh) (down g) ltac:(lia)). nia. }
      split; [nia|]. rewrite <- Nat2Z.inj_mul. lia.
    + unfold touches, jow. unfold w_out, positions in Hv.
      assert (v * across g <= V + left g + right g - kw)%nat.
      { pose proof (Nat.mul_div_le (V + left g + right g - kw) (across g) ltac:(lia)). nia. }
      split; [nia|]. rewrite <- Nat2Z.inj_mul. lia.
Qed.
Lemma infer_conv_shape : (kh <= H + top g + bottom g)%nat -> (kw <= V + left g + right g)%nat ->
  infer_conv (dims x) (dims w) (Some (kernel_shape P)) (Some (strides P)) (Some (pads P)) (Some (dilations P)) = Some (output_shape g x w).
Proof.
  intros Q1 Q2. destruct PP as (E1 & E2 & E3 & E4 & E5). rewrite E1, E2, E3, E4. unfold output_shape. rewrite DX, DW. cbn [skipn].
  unfold infer_conv. match goal with |- context [omap ?f _] => set (F := f) end.
  cbn [length Nat.leb Nat.ltb Nat.mul Nat.add guard obind aget nth_error orb negb seq omap].
  unfold F. cbn [length Nat.add aget nth_error obind].
  rewrite !(proj2 (Nat.eqb_neq _ _)) by lia. cbn [guard negb obind].
  replace (((kh - 1) * 1 + 1))%nat with kh by lia. replace (((kw - 1) * 1 + 1))%nat with kw by lia.
  rewrite !(proj2 (Nat.ltb_ge _ _)) by lia. cbn [guard negb obind]. unfold positions. now rewrite !Nat.add_assoc.
Qed.
End L.
