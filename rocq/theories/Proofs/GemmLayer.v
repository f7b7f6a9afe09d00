(** The Gemm layer. *)
From Coq Require Import List Arith Bool ZArith Znumtheory Lia.
From Verif Require Base.Array.
From Verif Require Import Spec.Numbers Spec.Matrix Spec.Shapes Spec.Tensors Spec.HonestProver Spec.Selection Spec.Conv Spec.Gemm
  Model.Builder Model.Gadgets Model.Freivalds Model.Selection Model.DataMovement Model.Gemm
  Proofs.Builder Proofs.RangeCheck Proofs.Gadgets Proofs.Rescale Proofs.RescaleArray Proofs.ArithmeticProps
  Proofs.Tensors Proofs.Selection Proofs.Conv Proofs.Conv2 Proofs.ConvLayer Proofs.Gemm.
Import ListNotations.
Local Open Scope Z_scope.

Lemma sized_inj tr t r c r' c' : sized tr t r c -> sized tr t r' c' -> r = r' /\ c = c'.
Proof. unfold sized. intros -> H. destruct tr; injection H as -> ->; auto. Qed.
Lemma gemm_exists ta tb a b c : gemm_operands ta tb a b c -> exists y, gemm ta tb a b c y.
Proof.
  intros (Wa & Wb & Wc & m & k & n & Sa & Sb & X).
  set (f := fun i j => sum_to k (fun e => operand ta a i e * operand tb b e j) + bias_at c i j).
  set (y := {| dims := [m; n]; flat := concat (fmat m n f) |}).
  assert (CL : forall l, length (concat (map (fun i => map (f i) (seq 0 n)) l)) = (length l * n)%nat).
  { induction l as [|u l IH]; [reflexivity|]. cbn [map concat length]. rewrite app_length, map_length, seq_length, IH. lia. }
  assert (WY : well_formed y).
  { unfold well_formed, y. cbn [dims flat]. unfold fmat. rewrite CL, seq_length. unfold prod. cbn [fold_right]. lia. }
  exists y. split; auto. exists m, k, n. split; auto. split; auto. split; [reflexivity|]. intros i j Hi Hj. exists (bias_at c i j). split.
  - unfold bias_at. destruct (elem_exists c (read_coords [i; j] (dims c)) Wc) as (v & E); [|now rewrite E].
    destruct X as (L & X). destruct (dims c) as [|d0 [|d1 [|d2 r]]]; cbn in L; try lia; cbn in X.
    + constructor.
    + inversion X as [|? ? ? ? H0 _]; subst. unfold read_coords. cbn. repeat constructor. destruct (Nat.eqb_spec d0 1); lia.
    + inversion X as [|? ? ? ? H0 X1]; subst. inversion X1 as [|? ? ? ? H1 _]; subst. unfold read_coords. cbn.
      repeat constructor; [destruct (Nat.eqb_spec d0 1)|destruct (Nat.eqb_spec d1 1)]; lia.
  - rewrite elem_in by (repeat constructor; auto). cbn [y dims flat].
    replace (row_major [i; j] [m; n]) with (i * n + j)%nat by (unfold row_major; cbn; lia).
    assert (G : forall l q, nth_error l i = Some q -> nth_error (concat (map (fun i => map (f i) (seq 0 n)) l)) (i * n + j) = Some (f q j)).
    { clear Hi. induction i as [|i IH]; intros [|u l] q E; cbn [nth_error] in E; try discriminate; cbn [map concat].
      - injection E as ->. cbn [Nat.mul Nat.add]. rewrite nth_error_app1 by (rewrite map_length, seq_length; lia).
        rewrite nth_error_map, nth_error_seq0 by auto. reflexivity.
      - rewrite nth_error_app2 by (rewrite map_length, seq_length; lia). rewrite map_length, seq_length.
        replace (S i * n + j - n)%nat with (i * n + j)%nat by lia. now apply IH. }
    unfold fmat. rewrite (G (seq 0 m) i) by now apply nth_error_seq0. reflexivity.
Qed.

Section G.
Variables (p : Z) (c : nat) (F : nat -> list (list Z)) (k s : nat) (is_rescale is_relu : bool).
Hypothesis Hp : prime p.
Hypothesis Hc : (0 < c)%nat.
Hypothesis Hk : (k < 32)%nat.
Hypothesis Hs : (s < 64)%nat.
Hypothesis W1 : width_ok c k.
Hypothesis W2 : width_ok c (s + 1).
Hypothesis Big : 2 * (2 ^ Z.of_nat k * 2 ^ Z.of_nat (rounded c (s + 1)) + 2 ^ Z.of_nat (rounded c k)) <= p.

Variables (P : gemm_params) (ta tb : bool) (a w b y : tensor Z) (m d n : nat).
Hypothesis PA : gemm_attributes P ta tb.
Hypothesis Wa : well_formed a.
Hypothesis Ww : well_formed w.
Hypothesis Wb : well_formed b.
Hypothesis Sa : sized ta a m d.
Hypothesis Sw : sized tb w d n.
Hypothesis X : expands_to (dims b) [m; n].
Hypothesis G : gemm ta tb a w b y.
Hypothesis NC : not_a_column b y.
Hypothesis R : Forall (layer_range k s is_rescale is_relu) (flat y).

Let A := operand_matrix p ta a m d.
Let W := operand_matrix p tb w d n.

Lemma layer_steps claimed challenges :
  gemm_layer p c P is_rescale is_relu k (s + 1) claimed challenges (encoded p a) (encoded p w) (encoded p b) =
  bind (compute_core_product p (freivalds_reps P) claimed challenges A W) (fun core =>
  bind (broadcast_bias p (m_rows core) (m_cols core) (encoded p b)) (fun bias =>
  bind (maybe_rescale p c (map2 (add p) (concat (m_data core)) bias) is_rescale is_relu k (s + 1)) (fun out =>
  Ret {| dims := [m_rows core; m_cols core]; flat := out |}))).
Proof.
  destruct PA as (P1 & P2 & P3 & P4). unfold gemm_layer. rewrite P1, P2, P3, P4. cbn [andb negb].
  destruct (operand_fst p ta a m d false Wa Sa) as (u & E1 & E2). rewrite E1. cbn [bind].
  assert (EW : weights_2d P (encoded p w) = promote_to_2d (encoded p w) true).
  { unfold weights_2d. cbn [encoded dims]. unfold sized in Sw. rewrite Sw. destruct tb; reflexivity. }
  rewrite EW. destruct (operand_fst p tb w d n true Ww Sw) as (v & E3 & E4). rewrite E3. cbn [bind].
  unfold flag in E2, E4. rewrite E2. cbn [bind]. rewrite E4. cbn [bind]. reflexivity.
Qed.
Lemma y_dims : dims y = [m; n].
Proof.
  destruct G as (_ & m' & d' & n' & S1 & S2 & D & _). destruct (sized_inj _ _ _ _ _ _ Sa S1), (sized_inj _ _ _ _ _ _ Sw S2). now subst.
Qed.
Lemma y_flat : flat y = concat (fmat m n (fun i j => sum_to d (fun e => operand ta a i e * operand tb w e j) + bias_at b i j)).
Proof.
  destruct G as (WY & m' & d' & n' & S1 & S2 & D & E). destruct (sized_inj _ _ _ _ _ _ Sa S1), (sized_inj _ _ _ _ _ _ Sw S2). subst m' d' n'.
  apply flat2; auto. intros i j Hi Hj. destruct (E i j Hi Hj) as (v & E1 & E2). rewrite E2. unfold bias_at. now rewrite E1.
Qed.
Lemma sums_enc : map2 (add p) (concat (product_matrix p ta tb a w m d n)) (concat (fmat m n (fun i j => enc p (bias_at b i j)))) = map (enc p) (flat y).
Proof.
  unfold product_matrix. rewrite map2_concat, y_flat, concat_map. f_equal. unfold fmat. rewrite map_map. apply map_ext. intros i.
  rewrite map_map. apply map_ext. intros j. apply enc_add.
Qed.
Lemma after_core : broadcast_bias p m n (encoded p b) = Ret (concat (fmat m n (fun i j => enc p (bias_at b i j)))).
Proof. apply broadcast_bias_ok; auto. intros D. apply (NC m n); auto. apply y_dims. Qed.

Lemma right_core out : (k mod c = 0)%nat -> ((s + 1) mod c = 0)%nat ->
  accepts p (table_rows c F) (bind (broadcast_bias p m n (encoded p b)) (fun bias =>
    bind (maybe_rescale p c (map2 (add p) (concat (product_matrix p ta tb a w m d n)) bias) is_rescale is_relu k (s + 1)) (fun out =>
    Ret {| dims := [m; n]; flat := out |}))) out -> out = encoded p (after_layer k is_rescale is_relu y).
Proof.
  intros M1 M2. rewrite after_core. cbn [bind]. rewrite sums_enc, accepts_bind. intros (o & H1 & H2). cbn [accepts] in H2.
  apply (maybe_rescale_exact p c F k s is_rescale is_relu (flat y)) in H1; auto. subst. unfold encoded, after_layer. cbn [dims flat].
  rewrite map_map, y_dims. now rewrite <- ?H2.
Qed.

Lemma entry_fmat r q (f : nat -> nat -> Z) i j : (i < r)%nat -> (j < q)%nat -> entry (fmat r q f) i j = f i j.
Proof.
  intros Hi Hj. unfold entry, fmat. rewrite (nth_indep _ [] (map (f 0%nat) (seq 0 q))) by (rewrite map_length, seq_length; lia).
  rewrite (map_nth (fun i => map (f i) (seq 0 q))), seq_nth by auto.
  rewrite (nth_indep _ 0 (f (0 + i)%nat 0%nat)) by (rewrite map_length, seq_length; lia). now rewrite map_nth, seq_nth by auto.
Qed.
Lemma zsum_mod (f g : nat -> Z) l : zsum (map (fun e => enc p (f e) * enc p (g e)) l) mod p = sumZ (map (fun e => f e * g e) l) mod p.
Proof.
  unfold zsum, sumZ. induction l as [|e l IH]; [reflexivity|]. cbn [map fold_right]. rewrite Zplus_mod, IH, <- Zplus_mod.
  unfold enc. rewrite Zplus_mod, <- Zmult_mod, <- Zplus_mod. reflexivity.
Qed.
Lemma claimed_product C : is_matrix p m n C -> is_product p m d n (m_data A) (m_data W) C -> C = product_matrix p ta tb a w m d n.
Proof.
  intros (L & H) IP. unfold product_matrix, fmat. apply map_seq_nth; auto. intros i Hi.
  destruct (nth_error C i) as [row|] eqn:E; [|apply nth_error_None in E; lia]. f_equal.
  destruct (H row) as (L1 & _); [now apply nth_error_In in E|]. apply map_seq_nth; auto. intros j Hj.
  rewrite (nth_error_nth' _ 0) by lia. f_equal. specialize (IP i j Hi Hj). unfold entry at 1 in IP.
  rewrite (nth_error_nth _ _ [] E) in IP. rewrite IP. unfold A, W, operand_matrix. cbn [m_data].
  etransitivity; [|exact (zsum_mod (fun e => operand ta a i e) (fun e => operand tb w e j) (seq 0 d))].
  f_equal. f_equal. apply map_ext_in. intros e He. apply in_seq in He.
  now rewrite !entry_fmat by lia.
Qed.

Lemma gemm_sound claimed challenges out : (k mod c = 0)%nat -> ((s + 1) mod c = 0)%nat ->
  m_rows claimed = m -> m_cols claimed = n -> is_matrix p m n (m_data claimed) ->
  accepts p (table_rows c F)
    (gemm_layer p c P is_rescale is_relu k (s + 1) claimed challenges (encoded p a) (encoded p w) (encoded p b)) out ->
  out = encoded p (after_layer k is_rescale is_relu y) \/
  (should_use_freivalds m d n (freivalds_reps P) = true /\ ~ is_product p m d n (m_data A) (m_data W) (m_data claimed) /\
   accepts p (table_rows c F) (freivalds p A W claimed challenges) tt).
Proof.
  intros M1 M2 CR CC CM. rewrite layer_steps, accepts_bind. intros (core & H1 & H2).
  unfold compute_core_product in H1. unfold A, W in H1. cbn [operand_matrix m_rows m_cols] in H1. rewrite Nat.eqb_refl in H1. cbn [negb] in H1.
  destruct (should_use_freivalds m d n (freivalds_reps P)) eqn:U.
  - rewrite accepts_bind in H1. destruct H1 as ([] & H0 & H1). cbn [accepts] in H1. subst core.
    assert (DEC : {m_data claimed = product_matrix p ta tb a w m d n} + {m_data claimed <> product_matrix p ta tb a w m d n})
      by (apply list_eq_dec, list_eq_dec, Z.eq_dec).
    destruct DEC as [E|NE].
    + left. rewrite E, CR, CC in H2. apply right_core; auto.
    + right. split; auto. split; [|exact H0]. intros IP. apply NE. now apply claimed_product.
  - left. rewrite matmul_fmat in H1. cbn [accepts] in H1. rewrite <- ?H1 in H2. subst core. cbn [m_rows m_cols m_data] in H2. apply right_core; auto.
Qed.
Lemma gemm_run claimed challenges : should_use_freivalds m d n (freivalds_reps P) = false ->
  run honest_hint (table_rowsb c F)
    (gemm_layer p c P is_rescale is_relu k (s + 1) claimed challenges (encoded p a) (encoded p w) (encoded p b)) =
  Some (encoded p (after_layer k is_rescale is_relu y)).
Proof.
  intros U. rewrite layer_steps, run_bind. unfold compute_core_product, A, W. cbn [operand_matrix m_rows m_cols]. rewrite Nat.eqb_refl. cbn [negb].
  rewrite U, matmul_fmat. cbn [run m_rows m_cols m_data]. rewrite after_core. cbn [bind]. rewrite sums_enc, run_bind.
  rewrite (maybe_rescale_run p c F k s is_rescale is_relu (flat y)) by auto. cbn [run]. unfold encoded, after_layer. cbn [dims flat].
  now rewrite map_map, y_dims.
Qed.
End G.

Lemma gemm_layer_sound p c F k s is_rescale is_relu P ta tb a w b y claimed challenges out :
  prime p -> (0 < c)%nat -> (k < 32)%nat -> (s < 64)%nat -> width_ok c k -> width_ok c (s + 1) ->
  2 * (2 ^ Z.of_nat k * 2 ^ Z.of_nat (rounded c (s + 1)) + 2 ^ Z.of_nat (rounded c k)) <= p ->
  (k mod c = 0)%nat -> ((s + 1) mod c = 0)%nat ->
  gemm_operands ta tb a w b -> gemm_attributes P ta tb -> gemm ta tb a w b y -> not_a_column b y ->
  Forall (layer_range k s is_rescale is_relu) (flat y) ->
  dims y = [m_rows claimed; m_cols claimed] -> is_matrix p (m_rows claimed) (m_cols claimed) (m_data claimed) ->
  accepts p (table_rows c F)
    (gemm_layer p c P is_rescale is_relu k (s + 1) claimed challenges (encoded p a) (encoded p w) (encoded p b)) out ->
  out = encoded p (after_layer k is_rescale is_relu y) \/
  exists A W, rows_modulo p ta a (m_data A) /\ rows_modulo p tb w (m_data W) /\
    should_use_freivalds (m_rows A) (m_cols A) (m_cols W) (freivalds_reps P) = true /\
    ~ is_product p (m_rows A) (m_cols A) (m_cols W) (m_data A) (m_data W) (m_data claimed) /\
    accepts p (table_rows c F) (freivalds p A W claimed challenges) tt.
Proof.
  intros Hp Hc Hk Hs W1 W2 Big M1 M2 (Wa & Ww & Wb & m & d & n & Sa & Sw & X) PA G NC R D CM H.
  pose proof (y_dims p ta tb a w b y m d n Sa Sw X G) as D'. rewrite D' in D. injection D as CR CC. rewrite <- CR, <- CC in CM.
  destruct (gemm_sound p c F k s is_rescale is_relu Hp Hc Hk Hs W1 W2 Big P ta tb a w b y m d n PA Wa Ww Wb Sa Sw X G NC R
    claimed challenges out M1 M2 (eq_sym CR) (eq_sym CC) CM H) as [E|(U & NP & AC)]; [now left|right].
  exists (operand_matrix p ta a m d), (operand_matrix p tb w d n). split; [exists m, d; split; auto|]. split; [exists d, n; split; auto|].
  split; [exact U|]. split; [exact NP|exact AC].
Qed.
Lemma gemm_layer_run p c F k s is_rescale is_relu P ta tb a w b y claimed challenges :
  prime p -> (0 < c)%nat -> (k < 32)%nat -> (s < 64)%nat -> width_ok c k -> width_ok c (s + 1) ->
  2 * (2 ^ Z.of_nat k * 2 ^ Z.of_nat (rounded c (s + 1)) + 2 ^ Z.of_nat (rounded c k)) <= p ->
  gemm_operands ta tb a w b -> gemm_attributes P ta tb -> gemm ta tb a w b y -> not_a_column b y ->
  Forall (layer_range k s is_rescale is_relu) (flat y) -> freivalds_reps P = 0%nat ->
  run honest_hint (table_rowsb c F)
    (gemm_layer p c P is_rescale is_relu k (s + 1) claimed challenges (encoded p a) (encoded p w) (encoded p b)) =
  Some (encoded p (after_layer k is_rescale is_relu y)).
Proof.
  intros Hp Hc Hk Hs W1 W2 Big (Wa & Ww & Wb & m & d & n & Sa & Sw & X) PA G NC R Z0.
  apply (gemm_run p c F k s is_rescale is_relu Hp Hc Hk Hs W1 W2 Big P ta tb a w b y m d n PA Wa Ww Wb Sa Sw X G NC R).
  rewrite Z0. reflexivity.
Qed.

(** A bias that is one column is added along the rows. *)
Definition plain : gemm_params :=
  {| transa := 0; transb := 0; alpha_one := true; beta_one := true; expected_weight_shape := None; freivalds_reps := 0 |}.
Definition nothing : matrix := {| m_rows := 0; m_cols := 0; m_data := [] |}.
Lemma column_bias_wrong p c k n_bits : 1000 < p ->
  exists a w b y out, gemm_operands false false a w b /\ gemm_attributes plain false false /\ gemm false false a w b y /\
    yields p (gemm_layer p c plain false false k n_bits nothing [] (encoded p a) (encoded p w) (encoded p b)) out /\
    out <> encoded p y.
Proof.
  intros Hp. exists (t4 [2; 1]%nat [1; 2]), (t4 [1; 2]%nat [3; 4]), (t4 [2; 1]%nat [10; 20]), (t4 [2; 2]%nat [13; 14; 26; 28]),
    (encoded p (t4 [2; 2]%nat [13; 24; 16; 28])).
  split; [|split; [|split; [|split]]].
  - split; [reflexivity|]. split; [reflexivity|]. split; [reflexivity|]. exists 2%nat, 1%nat, 2%nat. split; [reflexivity|]. split; [reflexivity|].
    split; [cbn; lia|]. cbn. constructor; [now right|constructor; [now left|constructor]].
  - repeat split.
  - split; [reflexivity|]. exists 2%nat, 1%nat, 2%nat. split; [reflexivity|]. split; [reflexivity|]. split; [reflexivity|].
    intros i j Hi Hj. destruct i as [|[|i]]; [| |lia]; (destruct j as [|[|j]]; [| |lia]); eexists; split; reflexivity.
  - assert (E : gemm_layer p c plain false false k n_bits nothing [] (encoded p (t4 [2; 1]%nat [1; 2])) (encoded p (t4 [1; 2]%nat [3; 4]))
        (encoded p (t4 [2; 1]%nat [10; 20])) = Ret (encoded p (t4 [2; 2]%nat [13; 24; 16; 28]))).
    { unfold gemm_layer. cbn -[add mul enc const]. unfold encoded, t4. cbn [dims flat map]. unfold dot. cbn [fold_left combine fst snd].
      change (const p 0) with (enc p 0). rewrite !enc_mul, !enc_add. reflexivity. }
    rewrite E. apply yields_ret.
  - unfold encoded, t4. cbn [dims flat map]. intros E. injection E as E. unfold enc in E. rewrite !Z.mod_small in E by lia. lia.
Qed.

(** *** Operands that are not matrices *)
Definition shaped (d : list nat) (t : tensor Z) : tensor Z := {| dims := d; flat := flat t |}.
Lemma gemm_flat p c P is_rescale is_relu k n_bits claimed challenges a w b n :
  let layer := gemm_layer p c P is_rescale is_relu k n_bits claimed challenges in
  (dims a = [n] -> layer a w b = layer (shaped [1%nat; n] a) w b) /\
  (dims w = [n] -> expected_weight_shape P = None -> layer a w b = layer a (shaped [n; 1%nat] w) b) /\
  (forall r q, dims w = [n] -> expected_weight_shape P = Some (r, q) -> n = (r * q)%nat -> layer a w b = layer a (shaped [r; q] w) b) /\
  (forall r q, dims w = [n] -> expected_weight_shape P = Some (r, q) -> n <> (r * q)%nat -> rejected p (layer a w b)) /\
  (alpha_one P && beta_one P = false -> rejected p (layer a w b)).
Proof.
  cbv zeta. unfold gemm_layer, shaped. split; [|split; [|split; [|split]]].
  - intros D. unfold promote_to_2d at 1 2. cbn [dims flat]. now rewrite D.
  - intros D E. unfold weights_2d. rewrite E, D. unfold promote_to_2d at 2 4. cbn [dims flat]. now rewrite D.
  - intros r q D E ->. unfold weights_2d. rewrite E, D. cbn [dims flat]. now rewrite Nat.eqb_refl.
  - intros r q D E N T o A. apply accepts_bind in A as (m & _ & A). apply accepts_bind in A as (m2 & A & _).
    unfold weights_2d in A. rewrite D, E in A. rewrite (proj2 (Nat.eqb_neq _ _)) in A by auto. exact A.
  - intros E T o A. apply accepts_bind in A as (m & _ & A). apply accepts_bind in A as (m2 & _ & A).
    apply accepts_bind in A as (m3 & _ & A). apply accepts_bind in A as (m4 & _ & A). rewrite E in A. exact A.
Qed.
