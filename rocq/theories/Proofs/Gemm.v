(** Gemm. *)
From Coq Require Import List Arith Bool ZArith Znumtheory Lia.
From Verif Require Base.Array.
From Verif Require Import Spec.Numbers Spec.Matrix Spec.Shapes Spec.Tensors Spec.HonestProver Spec.Selection Spec.Conv Spec.Gemm
  Model.Builder Model.Gadgets Model.Freivalds Model.Selection Model.DataMovement Model.Gemm
  Proofs.Builder Proofs.RangeCheck Proofs.Gadgets Proofs.Rescale Proofs.RescaleArray Proofs.ArithmeticProps
  Proofs.Tensors Proofs.Selection Proofs.Conv Proofs.Conv2 Proofs.ConvLayer.
Import ListNotations.
Local Open Scope Z_scope.

Definition fmat {A} (r c : nat) (f : nat -> nat -> A) : list (list A) := map (fun i => map (f i) (seq 0 c)) (seq 0 r).
Lemma fmat_ext {A} r c (f g : nat -> nat -> A) : (forall i j, (i < r)%nat -> (j < c)%nat -> f i j = g i j) -> fmat r c f = fmat r c g.
Proof.
  intros H. unfold fmat. apply map_ext_in. intros i Hi. apply map_ext_in. intros j Hj. apply in_seq in Hi, Hj. apply H; lia.
Qed.
Lemma map_seq_nth {A} (l : list A) c f : length l = c -> (forall j, (j < c)%nat -> nth_error l j = Some (f j)) -> l = map f (seq 0 c).
Proof.
  intros L H. apply Array.nth_error_ext'. intros j. rewrite nth_error_map. destruct (Nat.lt_ge_cases j c) as [Hj|Hj].
  - rewrite nth_error_seq0 by auto. now rewrite H.
  - rewrite !(proj2 (nth_error_None _ _)); auto; rewrite ?seq_length; lia.
Qed.
Lemma nth_error_skipn {A} (l : list A) k j : nth_error (skipn k l) j = nth_error l (k + j).
Proof. revert k. induction l as [|a l IH]; intros [|k]; cbn; auto. now destruct j. Qed.
Lemma nth_error_firstn {A} (l : list A) c j : (j < c)%nat -> nth_error (firstn c l) j = nth_error l j.
Proof. revert l j. induction c as [|c IH]; intros l j H; [lia|]. destruct l, j; cbn; auto. apply IH. lia. Qed.
Lemma rows_of_f (l : list Z) r c f : length l = (r * c)%nat ->
  (forall i j, (i < r)%nat -> (j < c)%nat -> nth_error l (i * c + j) = Some (f i j)) -> rows_of r c l = fmat r c f.
Proof.
  intros L H. unfold rows_of, fmat. apply map_ext_in. intros i Hi. apply in_seq in Hi. apply map_seq_nth.
  - rewrite firstn_length, skipn_length. nia.
  - intros j Hj. rewrite nth_error_firstn by auto. rewrite nth_error_skipn. apply H; lia.
Qed.
Lemma concat_rows_from (l : list Z) c k r : length l = ((k + r) * c)%nat ->
  concat (map (fun i => firstn c (skipn (i * c) l)) (seq k r)) = skipn (k * c) l.
Proof.
  revert k. induction r as [|r IH]; intros k L; cbn [seq map concat].
  - symmetry. apply skipn_all2. lia.
  - rewrite IH by lia. replace (S k * c)%nat with (c + k * c)%nat by lia.
    rewrite <- (firstn_skipn c (skipn (k * c) l)) at 2. f_equal. clear. revert k l. 
    intros k l. generalize (k * c)%nat. intros q. revert l. induction q as [|q IH]; intros l; [now rewrite Nat.add_0_r|].
    rewrite <- plus_n_Sm. destruct l; [now rewrite !skipn_nil|]. cbn [skipn]. apply IH.
Qed.
Lemma concat_rows (l : list Z) r c : length l = (r * c)%nat -> concat (rows_of r c l) = l.
Proof. intros L. unfold rows_of. now rewrite (concat_rows_from l c 0 r). Qed.

Lemma mat_nth (t : tensor Z) r c i j : well_formed t -> dims t = [r; c] -> (i < r)%nat -> (j < c)%nat ->
  nth_error (flat t) (i * c + j) = Some (mat t i j) /\ elem t [i; j] = Some (mat t i j).
Proof.
  intros W D Hi Hj. unfold mat. destruct (elem_exists t [i; j] W) as (v & E); [rewrite D; repeat constructor; auto|].
  rewrite E. split; auto. rewrite elem_in in E by (rewrite D; repeat constructor; auto). rewrite D in E.
  replace (row_major [i; j] [r; c]) with (i * c + j)%nat in E by (unfold row_major; cbn; lia). exact E.
Qed.
Lemma wf2 (t : tensor Z) r c : well_formed t -> dims t = [r; c] -> length (flat t) = (r * c)%nat.
Proof. intros W D. rewrite W, D. unfold prod. cbn [fold_right]. lia. Qed.
Lemma flat2 (t : tensor Z) r c f : well_formed t -> dims t = [r; c] ->
  (forall i j, (i < r)%nat -> (j < c)%nat -> elem t [i; j] = Some (f i j)) -> flat t = concat (fmat r c f).
Proof.
  intros W D H. pose proof (wf2 t r c W D) as L. rewrite <- (concat_rows (flat t) r c L). f_equal. apply rows_of_f; auto.
  intros i j Hi Hj. destruct (mat_nth t r c i j W D Hi Hj) as (E1 & E2). rewrite E1, <- E2. now apply H.
Qed.

Section G.
Variable p : Z.
Lemma rows_of_enc t r c : well_formed t -> dims t = [r; c] -> rows_of r c (map (enc p) (flat t)) = fmat r c (fun i j => enc p (mat t i j)).
Proof.
  intros W D. apply rows_of_f; [rewrite map_length; now apply wf2|]. intros i j Hi Hj. rewrite nth_error_map.
  now rewrite (proj1 (mat_nth t r c i j W D Hi Hj)).
Qed.
Lemma column_fmat r c (f : nat -> nat -> Z) j : (j < c)%nat -> column (fmat r c f) j = map (fun i => f i j) (seq 0 r).
Proof.
  intros Hj. unfold column, fmat. rewrite map_map. apply map_ext. intros i.
  rewrite (nth_indep _ 0 (f i 0%nat)) by (rewrite map_length, seq_length; lia). rewrite map_nth, seq_nth by auto. reflexivity.
Qed.
Lemma transpose_fmat r c (f : nat -> nat -> Z) : map (column (fmat r c f)) (seq 0 c) = fmat c r (fun j i => f i j).
Proof. unfold fmat at 2. apply map_ext_in. intros j Hj. apply in_seq in Hj. apply column_fmat. lia. Qed.

Definition operand_matrix (tr : bool) (t : tensor Z) (r c : nat) : matrix :=
  {| m_rows := r; m_cols := c; m_data := fmat r c (fun i j => enc p (operand tr t i j)) |}.
Definition flag (tr : bool) : nat := if tr then 1%nat else 0%nat.
Lemma load_operand tr t r c col A (k : matrix -> prog A) : well_formed t -> sized tr t r c ->
  bind (bind (promote_to_2d (encoded p t) col) (fun m => check_and_apply_transpose m (flag tr))) k = k (operand_matrix tr t r c).
Proof.
  intros W D. unfold sized in D. unfold promote_to_2d. cbn [encoded dims flat]. destruct tr; rewrite D; cbn [bind flag check_and_apply_transpose m_rows m_cols m_data].
  - rewrite (rows_of_enc t c r W D), transpose_fmat. reflexivity.
  - rewrite (rows_of_enc t r c W D). reflexivity.
Qed.
Lemma operand_fst tr t r c col : well_formed t -> sized tr t r c ->
  exists m, promote_to_2d (encoded p t) col = Ret m /\ check_and_apply_transpose m (flag tr) = Ret (operand_matrix tr t r c).
Proof.
  intros W D. unfold sized in D. unfold promote_to_2d. cbn [encoded dims flat]. destruct tr; rewrite D; eexists; (split; [reflexivity|]);
    cbn [flag check_and_apply_transpose m_rows m_cols m_data].
  - rewrite (rows_of_enc t c r W D), transpose_fmat. reflexivity.
  - rewrite (rows_of_enc t r c W D). reflexivity.
Qed.

Lemma dot_sum (f g : nat -> Z) k : dot p (map (fun e => enc p (f e)) (seq 0 k)) (map (fun e => enc p (g e)) (seq 0 k)) = enc p (sum_to k (fun e => f e * g e)).
Proof. unfold dot. change (const p 0) with (enc p 0). rewrite (dot_enc p f g). reflexivity. Qed.
Definition product_matrix ta tb a b m k n : list (list Z) :=
  fmat m n (fun i j => enc p (sum_to k (fun e => operand ta a i e * operand tb b e j))).
Lemma matmul_fmat ta tb a b m k n :
  matrix_multiplication p (operand_matrix ta a m k) (operand_matrix tb b k n) =
  Ret {| m_rows := m; m_cols := n; m_data := product_matrix ta tb a b m k n |}.
Proof.
  unfold matrix_multiplication, operand_matrix. cbn [m_rows m_cols m_data]. rewrite Nat.eqb_refl. cbn [negb].
  unfold product_matrix. do 2 f_equal. set (B := fmat k n _). unfold fmat. rewrite map_map. apply map_ext. intros i. unfold B.
  apply map_ext_in. intros j Hj. apply in_seq in Hj. rewrite column_fmat by lia. apply dot_sum.
Qed.
Lemma map2_concat (f g : nat -> nat -> Z) r c : map2 (add p) (concat (fmat r c f)) (concat (fmat r c g)) = concat (fmat r c (fun i j => add p (f i j) (g i j))).
Proof.
  unfold fmat. induction (seq 0 r) as [|i l IH]; [reflexivity|]. cbn [map concat]. rewrite <- IH. clear IH. unfold map2.
  generalize (concat (map (fun i => map (f i) (seq 0 c)) l)) (concat (map (fun i => map (g i) (seq 0 c)) l)). intros u v.
  induction (seq 0 c) as [|j s IH]; [reflexivity|]. cbn [map app combine fst snd]. now rewrite IH.
Qed.
Lemma concat_repeat_fmat (f : nat -> Z) r c : concat (repeat (map f (seq 0 c)) r) = concat (fmat r c (fun _ => f)).
Proof. unfold fmat. f_equal. generalize 0%nat at 3. induction r as [|r IH]; intros s; [reflexivity|]. cbn. now rewrite <- IH. Qed.

Definition bias_at (c : tensor Z) (i j : nat) : Z := match elem c (read_coords [i; j] (dims c)) with Some v => v | None => 0 end.

Lemma bias_row c m n : (forall i j, (i < m)%nat -> (j < n)%nat -> nth_error (flat c) j = Some (bias_at c i j)) ->
  length (flat c) = n -> concat (repeat (map (enc p) (flat c)) m) = concat (fmat m n (fun i j => enc p (bias_at c i j))).
Proof.
  intros H L. destruct m as [|m]; [reflexivity|].
  replace (map (enc p) (flat c)) with (map (fun j => enc p (bias_at c 0 j)) (seq 0 n)).
  - rewrite concat_repeat_fmat. f_equal. apply fmat_ext. intros i j Hi Hj.
    assert (Some (bias_at c 0 j) = Some (bias_at c i j)) as Q by (rewrite <- !H; auto; lia). now injection Q as ->.
  - symmetry. apply map_seq_nth; [now rewrite map_length|]. intros j Hj. rewrite nth_error_map, (H 0%nat j) by lia. reflexivity.
Qed.
Lemma bias_scalar c m n : (forall i j, (i < m)%nat -> (j < n)%nat -> nth_error (flat c) 0 = Some (bias_at c i j)) ->
  concat (repeat (repeat (hd (const p 0) (map (enc p) (flat c))) n) m) = concat (fmat m n (fun i j => enc p (bias_at c i j))).
Proof.
  intros H. destruct m as [|m]; [reflexivity|].
  replace (repeat (hd (const p 0) (map (enc p) (flat c))) n) with (map (fun j => enc p (bias_at c 0 j)) (seq 0 n)).
  - rewrite concat_repeat_fmat. f_equal. apply fmat_ext. intros i j Hi Hj.
    assert (Some (bias_at c 0 j) = Some (bias_at c i j)) as Q by (rewrite <- (H 0%nat j), <- (H i j); auto; lia). now injection Q as ->.
  - symmetry. apply map_seq_nth; [apply repeat_length|]. intros j Hj.
    rewrite (nth_error_nth' _ (hd (const p 0) (map (enc p) (flat c)))) by (rewrite repeat_length; lia). rewrite nth_repeat.
    specialize (H 0%nat j ltac:(lia) Hj). destruct (flat c); [discriminate|]. cbn in H |- *. now injection H as ->.
Qed.

Lemma broadcast_bias_ok c m n : well_formed c -> expands_to (dims c) [m; n] ->
  (dims c = [m; 1%nat] -> m = 1%nat \/ n = 1%nat) ->
  broadcast_bias p m n (encoded p c) = Ret (concat (fmat m n (fun i j => enc p (bias_at c i j)))).
Proof.
  intros W (L & X) NC. unfold broadcast_bias. cbn [encoded dims flat].
  assert (EL : forall i j, (i < m)%nat -> (j < n)%nat -> forall q, row_major (read_coords [i; j] (dims c)) (dims c) = q ->
    Shapes.in_range (read_coords [i; j] (dims c)) (dims c) -> nth_error (flat c) q = Some (bias_at c i j)).
  { intros i j Hi Hj q Q R. unfold bias_at. destruct (elem_exists c _ W R) as (v & E). rewrite E. rewrite elem_in in E by auto. now rewrite Q in E. }
  unfold well_formed in W. unfold prod in W. rewrite map_length.
  assert (ONE : (1 < 1 \/ 0 < 1)%nat) by lia.
  destruct (list_eq_dec Nat.eq_dec (dims c) [m; n]) as [D|D].
  - f_equal. rewrite D in *. cbn [fold_right] in W.
    rewrite <- (concat_rows (map (enc p) (flat c)) m n) by (rewrite map_length; lia). f_equal. apply rows_of_f; [rewrite map_length; lia|].
    intros i j Hi Hj. rewrite nth_error_map. rewrite (EL i j Hi Hj (i * n + j)%nat); auto.
    + unfold read_coords, row_major. cbn. destruct (Nat.eqb_spec m 1), (Nat.eqb_spec n 1); cbn; nia.
    + unfold read_coords. cbn. repeat constructor; destruct (_ =? 1)%nat; lia.
  - destruct (dims c) as [|d0 [|d1 [|d2 r]]] eqn:DC.
    + cbn in W. rewrite W. destruct (Nat.eqb_spec 1 n) as [<-|N]; cbn [bind].
      * f_equal. apply bias_row; auto. intros i j Hi Hj. apply EL; auto; cbn; [lia|constructor].
      * cbn [Nat.eqb bind]. f_equal. apply bias_scalar. intros i j Hi Hj. apply EL; auto; cbn; constructor.
    + cbn [fold_right] in W. cbn in X. inversion X as [|? ? ? ? H0 _]; subst. rewrite Nat.mul_1_r in W. rewrite W.
      destruct (Nat.eqb_spec d0 n) as [<-|N]; cbn [bind].
      * f_equal. apply bias_row; auto. intros i j Hi Hj. apply EL; auto; unfold read_coords, row_major; cbn.
        -- destruct (Nat.eqb_spec d0 1); lia.
        -- repeat constructor. destruct (Nat.eqb_spec d0 1); lia.
      * destruct H0 as [->|]; [|contradiction]. cbn [Nat.eqb bind]. f_equal. apply bias_scalar. intros i j Hi Hj. apply EL; auto; cbn; repeat constructor.
    + cbn [fold_right] in W. cbn in X. inversion X as [|? ? ? ? H0 X1]; subst. inversion X1 as [|? ? ? ? H1 _]; subst.
      rewrite Nat.mul_1_r in W. rewrite W.
      assert (d0 = 1%nat) as ->.
      { destruct H0 as [|]; auto. subst d0. destruct H1 as [->| ->]; [|contradiction]. destruct (NC eq_refl); auto. subst. contradiction. }
      rewrite Nat.mul_1_l. destruct (Nat.eqb_spec d1 n) as [<-|N]; cbn [bind].
      * f_equal. apply bias_row; [|lia]. intros i j Hi Hj. apply EL; auto; unfold read_coords, row_major; cbn.
        -- destruct (Nat.eqb_spec d1 1); lia.
        -- repeat constructor. destruct (Nat.eqb_spec d1 1); lia.
      * destruct H1 as [->|]; [|contradiction]. cbn [Nat.eqb bind]. f_equal. apply bias_scalar. intros i j Hi Hj. apply EL; auto; cbn; repeat constructor.
    + cbn in L. lia.
Qed.
End G.
