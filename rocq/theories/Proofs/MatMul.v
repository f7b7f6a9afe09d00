(** The MatMul layer. *)
From Coq Require Import List Arith Bool ZArith Znumtheory Lia.
From Verif Require Base.Array.
From Verif Require Import Spec.Numbers Spec.Matrix Spec.Shapes Spec.Tensors Spec.HonestProver Spec.Selection Spec.Conv Spec.Gemm Spec.MatMul
  Model.Builder Model.Gadgets Model.Freivalds Model.Selection Model.DataMovement Model.Gemm Model.MatMul
  Proofs.Builder Proofs.RangeCheck Proofs.Gadgets Proofs.Rescale Proofs.RescaleArray Proofs.ArithmeticProps Proofs.Shapes
  Proofs.Tensors Proofs.DataMovement Proofs.DataMovement3 Proofs.DataMovement5 Proofs.Selection Proofs.Conv Proofs.Conv2 Proofs.ConvLayer Proofs.Gemm Proofs.GemmLayer.
Import Spec.Shapes ListNotations.
Local Open Scope Z_scope.

(** The matrix [q] of a tensor whose matrices have [r] rows and [c] columns. *)
Definition sliced (t : tensor Z) (r c q : nat) : tensor Z := {| dims := [r; c]; flat := firstn (r * c) (skipn (q * (r * c)) (flat t)) |}.
Lemma prod_app a b : prod (a ++ b) = (prod a * prod b)%nat.
Proof. unfold prod. induction a as [|x a IH]; cbn [app fold_right]; [lia|]. rewrite IH. lia. Qed.
Lemma prod2 r c : prod [r; c] = (r * c)%nat.
Proof. unfold prod. cbn [fold_right]. lia. Qed.
Lemma sliced_wf t B r c q : well_formed t -> dims t = B ++ [r; c] -> (q < prod B)%nat -> well_formed (sliced t r c q).
Proof.
  intros W D Q. unfold well_formed, sliced. cbn [dims flat]. rewrite prod2, firstn_length, skipn_length, W, D, prod_app, prod2. nia.
Qed.
Lemma sliced_elem t B r c q b i j : dims t = B ++ [r; c] -> in_range b B -> row_major b B = q -> (i < r)%nat -> (j < c)%nat ->
  elem (sliced t r c q) [i; j] = elem t (b ++ [i; j]).
Proof.
  intros D Rb Q Hi Hj. pose proof (in_range_length _ _ Rb) as L.
  assert (R2 : in_range [i; j] [r; c]) by (repeat constructor; auto).
  rewrite !elem_in; [|rewrite D; apply in_range_app; auto|exact R2]. rewrite D, row_major_app, Q, prod2 by auto. cbn [sliced dims flat].
  replace (row_major [i; j] [r; c]) with (i * c + j)%nat by (unfold row_major; cbn; lia).
  rewrite nth_error_firstn, nth_error_skipn by nia. reflexivity.
Qed.
Lemma sliced_mat t B r c q b i j : dims t = B ++ [r; c] -> in_range b B -> row_major b B = q -> (i < r)%nat -> (j < c)%nat ->
  mat (sliced t r c q) i j = value_at t (b ++ [i; j]).
Proof. intros D Rb Q Hi Hj. unfold mat, value_at. now rewrite (sliced_elem t B r c q b i j). Qed.
Lemma cover s q : (q < prod s)%nat -> exists b, in_range b s /\ row_major b s = q.
Proof. intros H. destruct (unravel_ok q s H) as (b & _ & R & E). eauto. Qed.

Lemma read_same b s : in_range b s -> read_coords b s = b.
Proof.
  intros R. pose proof (in_range_length _ _ R) as L. unfold read_coords. rewrite L, Nat.sub_diag. cbn [skipn]. clear L.
  induction R as [|x d b s H R IH]; [reflexivity|]. cbn. rewrite IH. destruct (Nat.eqb_spec d 1); [|reflexivity]. f_equal. lia.
Qed.
Lemma read_nil b : read_coords b [] = [].
Proof. unfold read_coords. now rewrite combine_nil. Qed.

Lemma from_right_ext a b : length a = length b -> (forall i, (i < length a)%nat -> dim_from_right a i = dim_from_right b i) -> a = b.
Proof.
  intros L H. rewrite <- (rev_involutive a), <- (rev_involutive b). f_equal. apply (nth_ext _ _ 1%nat 1%nat); rewrite !rev_length; auto.
Qed.
Lemma plain_common ba bb o : ba = [] \/ bb = [] \/ ba = bb -> broadcasts_to ba bb o -> o = match bb with [] => ba | _ => bb end.
Proof.
  intros H (L & A). assert (E0 : forall i, dim_from_right [] i = 1%nat) by (intros [|i]; reflexivity).
  assert (N : forall (l : list nat), match l with [] => [] | _ => l end = l) by now intros [].
  destruct H as [->|[->| ->]]; cbn [length] in L; rewrite ?Nat.max_0_r, ?Nat.max_id in L; cbn [Nat.max] in L.
  - rewrite N. apply from_right_ext; [auto|]. intros i Hi. specialize (A i Hi). rewrite E0 in A. unfold dims_agree in A. lia.
  - apply from_right_ext; [auto|]. intros i Hi. specialize (A i Hi). rewrite E0 in A. unfold dims_agree in A. lia.
  - replace (match bb with [] => bb | _ => bb end) with bb by now destruct bb. apply from_right_ext; [auto|]. intros i Hi.
    specialize (A i Hi). unfold dims_agree in A. lia.
Qed.
Lemma plain_broadcasts ba bb : ba = [] \/ bb = [] \/ ba = bb -> broadcasts_to ba bb (match bb with [] => ba | _ => bb end).
Proof.
  intros H. assert (E0 : forall i, dim_from_right [] i = 1%nat) by (intros [|i]; reflexivity).
  assert (N : forall (l : list nat), match l with [] => [] | _ => l end = l) by now intros [].
  destruct H as [->|[->| ->]].
  - rewrite N. split; [reflexivity|]. intros i Hi. right. left. now rewrite E0.
  - split; [cbn; lia|]. intros i Hi. right. right. now rewrite E0.
  - replace (match bb with [] => bb | _ => bb end) with bb by now destruct bb. split; [now rewrite Nat.max_id|]. intros i Hi. left. auto.
Qed.
Lemma positive_prod s : Forall (lt 0) s -> (0 < prod s)%nat.
Proof. unfold prod. induction 1; cbn [fold_right]; nia. Qed.

Section M.
Variables (p : Z) (c : nat) (F : nat -> list (list Z)) (k s : nat) (is_rescale : bool).
Hypothesis Hp : prime p.
Hypothesis Hc : (0 < c)%nat.
Hypothesis Hk : (k < 32)%nat.
Hypothesis Hs : (s < 64)%nat.
Hypothesis W1 : width_ok c k.
Hypothesis W2 : width_ok c (s + 1).
Hypothesis Big : 2 * (2 ^ Z.of_nat k * 2 ^ Z.of_nat (rounded c (s + 1)) + 2 ^ Z.of_nat (rounded c k)) <= p.

Variables (ba bb : list nat) (m d n : nat) (a w y : tensor Z).
Hypothesis OP : matmul_operands ba bb m d n a w.
Hypothesis PB : plain_batches ba bb.
Hypothesis G : matmul ba bb m d n a w y.
Hypothesis R : Forall (layer_range k s is_rescale false) (flat y).

Let o := match bb with [] => ba | _ => bb end.
Let ia (q : nat) : nat := if (prod ba =? 1)%nat then 0%nat else q.
Let ib (q : nat) : nat := if is_empty bb then 0%nat else q.

Lemma y_facts : dims y = o ++ [m; n] /\ well_formed y /\
  forall c i j, in_range c o -> (i < m)%nat -> (j < n)%nat ->
    elem y (c ++ [i; j]) = Some (sum_to d (fun e => value_at a (read_coords c ba ++ [i; e]) * value_at w (read_coords c bb ++ [e; j]))).
Proof.
  destruct G as (WY & o' & B & D & E). destruct PB as (H & _). pose proof (plain_common ba bb o' H B) as Eo.
  replace o' with o in * by auto. auto.
Qed.
Lemma batches : o = ba /\ bb = ba \/ o = ba /\ bb = [] \/ o = bb /\ ba = [].
Proof. destruct PB as ([E|[E|E]] & _); unfold o; rewrite E; [right; right|right; left|left]; destruct bb; auto. Qed.
Lemma ia_ok b : in_range b o -> in_range (read_coords b ba) ba /\ row_major (read_coords b ba) ba = ia (row_major b o).
Proof.
  intros Rb. unfold ia. pose proof (row_major_lt _ _ Rb) as Lt. destruct batches as [(E & _)|[(E & _)|(E & ->)]].
  - rewrite E in *. rewrite read_same by auto. split; auto. destruct (Nat.eqb_spec (prod ba) 1); lia.
  - rewrite E in *. rewrite read_same by auto. split; auto. destruct (Nat.eqb_spec (prod ba) 1); lia.
  - rewrite read_nil. split; [constructor|reflexivity].
Qed.
Lemma ib_ok b : in_range b o -> in_range (read_coords b bb) bb /\ row_major (read_coords b bb) bb = ib (row_major b o).
Proof.
  intros Rb. unfold ib. destruct batches as [(E & Eb)|[(E & Eb)|(E & Eb)]].
  - rewrite E in *. rewrite Eb, read_same by auto. split; auto. destruct ba; [|reflexivity]. inversion Rb. reflexivity.
  - rewrite Eb, read_nil. split; [constructor|reflexivity].
  - rewrite E in *. rewrite read_same by auto. split; auto. destruct bb; [|reflexivity]. inversion Rb. reflexivity.
Qed.
Definition prod_at (q : nat) : list (list Z) := product_matrix p false false (sliced a m d (ia q)) (sliced w d n (ib q)) m d n.

Lemma y_slice q : (q < prod o)%nat -> map (enc p) (flat (sliced y m n q)) = concat (prod_at q).
Proof.
  intros Q. destruct y_facts as (D & WY & E). destruct (cover o q Q) as (b & Rb & Eq).
  rewrite (flat2 (sliced y m n q) m n (fun i j => sum_to d (fun e => mat (sliced a m d (ia q)) i e * mat (sliced w d n (ib q)) e j))).
  - unfold prod_at, product_matrix. rewrite concat_map. f_equal. unfold fmat. rewrite map_map. apply map_ext. intros i. rewrite map_map. reflexivity.
  - exact (sliced_wf y o m n q WY D Q).
  - reflexivity.
  - intros i j Hi Hj. rewrite (sliced_elem y o m n q b i j) by auto. rewrite E by auto. f_equal. unfold sum_to. f_equal.
    apply map_ext_in. intros e He. apply in_seq in He. destruct OP as (Wa & Ww & Da & Dw).
    destruct (ia_ok b Rb) as (R1 & E1). destruct (ib_ok b Rb) as (R2 & E2). rewrite Eq in E1, E2.
    rewrite (sliced_mat a ba m d (ia q) (read_coords b ba) i e) by (auto; lia).
    rewrite (sliced_mat w bb d n (ib q) (read_coords b bb) e j) by (auto; lia). reflexivity.
Qed.
Lemma y_flat_slices : map (enc p) (flat y) = concat (map (fun q => concat (prod_at q)) (seq 0 (prod o))).
Proof.
  destruct y_facts as (D & WY & _).
  assert (L : length (flat y) = (prod o * (m * n))%nat) by (rewrite WY, D, prod_app, prod2; reflexivity).
  rewrite <- (concat_rows (flat y) (prod o) (m * n) L) at 1. rewrite concat_map. f_equal. unfold rows_of. rewrite map_map.
  apply map_ext_in. intros q Hq. apply in_seq in Hq. now apply (y_slice q).
Qed.
Lemma slice_matrix t B r q i : well_formed t -> dims t = B ++ [r; q] -> (i < prod B)%nat ->
  batch_slice r q i (map (enc p) (flat t)) = operand_matrix p false (sliced t r q i) r q.
Proof.
  intros W D Hi. unfold batch_slice, operand_matrix. f_equal. rewrite skipn_map, firstn_map.
  exact (rows_of_enc p (sliced t r q i) r q (sliced_wf t B r q i W D Hi) eq_refl).
Qed.
Lemma o_pos : (0 < prod o)%nat.
Proof. apply positive_prod. destruct PB as (_ & Pa & Pb). destruct batches as [(-> & _)|[(-> & _)|(-> & _)]]; auto. Qed.
Lemma ia_lt q : (q < prod o)%nat -> (ia q < prod ba)%nat.
Proof.
  intros Q. unfold ia. destruct PB as (_ & Pa & Pb). pose proof (positive_prod _ Pa). destruct (Nat.eqb_spec (prod ba) 1) as [E|NE]; [lia|].
  destruct batches as [(E & _)|[(E & _)|(E & E2)]]; try (rewrite E in Q; exact Q). exfalso. apply NE. now rewrite E2.
Qed.
Lemma ib_lt q : (q < prod o)%nat -> (ib q < prod bb)%nat.
Proof.
  intros Q. unfold ib. destruct PB as (_ & Pa & Pb). pose proof (positive_prod _ Pb). destruct bb as [|b0 r] eqn:Eb; cbn [is_empty]; [lia|].
  exact Q.
Qed.
Variables (reps : nat) (claimed : nat -> matrix) (challenges : nat -> list (list Z)).
Let A q := operand_matrix p false (sliced a m d (ia q)) m d.
Let W q := operand_matrix p false (sliced w d n (ib q)) d n.
Let core q := matmul_2d_core p reps (claimed q) (challenges q) (A q) (W q).
Definition finish (slices : list matrix) : prog (tensor Z) :=
  bind (lift (from_shape_vec [prod o; m; n] (concat (map (fun r => concat (m_data r)) slices)))) (fun stacked =>
  lift (from_shape_vec (o ++ [m; n]) (flat stacked))).

Lemma nd_steps : apply_nd_batched p reps claimed challenges (encoded p a) (encoded p w) = bind (mapM core (seq 0 (prod o))) finish.
Proof.
  destruct OP as (Wa & Ww & Da & Dw). destruct PB as (PB1 & Pa & Pb). pose proof (positive_prod _ Pa) as Qa. pose proof (positive_prod _ Pb) as Qb.
  assert (Ta : forall (B : list nat) u v, length (B ++ [u; v]) = S (S (length B)) /\ nth (length (B ++ [u; v]) - 2) (B ++ [u; v]) 0%nat = u /\
    nth (length (B ++ [u; v]) - 1) (B ++ [u; v]) 0%nat = v /\ firstn (length (B ++ [u; v]) - 2) (B ++ [u; v]) = B).
  { intros B u v. rewrite app_length. cbn [length]. replace (length B + 2 - 2)%nat with (length B) by lia. replace (length B + 2 - 1)%nat with (length B + 1)%nat by lia.
    split; [lia|]. split; [rewrite app_nth2, Nat.sub_diag by lia; reflexivity|]. split; [rewrite app_nth2 by lia; replace (length B + 1 - length B)%nat with 1%nat by lia; reflexivity|].
    rewrite firstn_app, Nat.sub_diag, firstn_all, app_nil_r. reflexivity. }
  destruct (Ta ba m d) as (L1 & N1 & N2 & F1). destruct (Ta bb d n) as (L2 & N3 & N4 & F2).
  unfold apply_nd_batched. cbn [encoded dims flat]. rewrite Da, Dw, N1, N2, N3, N4, F1, F2, Nat.eqb_refl. cbv zeta. rewrite L1, L2. cbn [Nat.ltb Nat.leb orb negb].
  assert (GD : negb (is_empty bb) && negb (is_empty ba) && (if list_eq_dec Nat.eq_dec ba bb then false else true) = false).
  { destruct PB1 as [->|[->| ->]]; [now rewrite andb_false_r|reflexivity|]. destruct (list_eq_dec Nat.eq_dec bb bb); [apply andb_false_r|congruence]. }
  rewrite GD. rewrite !Nat.max_l by lia.
  assert (La : (length (flat a) =? prod [prod ba; m; d])%nat = true).
  { apply Nat.eqb_eq. rewrite Wa, Da, prod_app. unfold prod. cbn [fold_right]. lia. }
  assert (Lb : (length (flat w) =? prod (if negb (is_empty bb) then [prod bb; d; n] else [d; n]))%nat = true).
  { apply Nat.eqb_eq. rewrite Ww, Dw, prod_app. destruct bb; cbn [is_empty negb]; unfold prod; cbn [fold_right]; lia. }
  unfold from_shape_vec at 1 2. rewrite !map_length, La, Lb. cbn [lift bind flat].
  assert (Ni : Nat.max (prod ba) (prod bb) = prod o).
  { destruct batches as [(E1 & E2)|[(E1 & E2)|(E1 & E2)]]; rewrite E1, E2; try lia; change (prod []) with 1%nat; lia. }
  rewrite Ni.
  assert (MM : forall l, (forall q, In q l -> (q < prod o)%nat) ->
    mapM (fun i => matmul_2d_core p reps (claimed i) (challenges i) (batch_slice m d (if (prod ba =? 1)%nat then 0%nat else i) (map (enc p) (flat a)))
      (batch_slice d n (if negb (is_empty bb) then i else 0%nat) (map (enc p) (flat w)))) l = mapM core l).
  { induction l as [|q l IH]; intros H; [reflexivity|]. cbn [mapM]. rewrite IH by (intros; apply H; now right). f_equal. unfold core, A, W. f_equal.
    - apply (slice_matrix a ba); auto. apply ia_lt. apply H. now left.
    - replace (if negb (is_empty bb) then q else 0%nat) with (ib q) by (unfold ib; destruct (is_empty bb); reflexivity).
      apply (slice_matrix w bb); auto. apply ib_lt. apply H. now left. }
  rewrite MM by (intros q Hq; apply in_seq in Hq; lia).
  assert (Eo : (if negb (is_empty bb) then bb else ba) = o) by (unfold o; now destruct bb).
  rewrite Eo. reflexivity.
Qed.

Definition bad (q : nat) : Prop :=
  should_use_freivalds m d n reps = true /\ ~ is_product p m d n (m_data (A q)) (m_data (W q)) (m_data (claimed q)) /\
  accepts p (table_rows c F) (freivalds p (A q) (W q) (claimed q) (challenges q)) tt.
Definition claims_fit : Prop := forall q, (q < prod o)%nat -> m_rows (claimed q) = m /\ m_cols (claimed q) = n /\ is_matrix p m n (m_data (claimed q)).
Definition good (q : nat) : matrix := {| m_rows := m; m_cols := n; m_data := prod_at q |}.
Lemma core_result q r : claims_fit -> (q < prod o)%nat -> accepts p (table_rows c F) (core q) r -> r = good q \/ bad q.
Proof.
  intros CF Q H. unfold core, matmul_2d_core, A, W in H. cbv zeta in H. cbn [operand_matrix m_rows m_cols] in H.
  match type of H with context [if ?g then Fail 90 else _] => destruct g; [destruct H|] end.
  destruct (should_use_freivalds m d n reps) eqn:U.
  - rewrite accepts_bind in H. destruct H as ([] & H0 & H1). cbn [accepts] in H1. subst r. destruct (CF q Q) as (C1 & C2 & C3).
    assert (DEC : {m_data (claimed q) = prod_at q} + {m_data (claimed q) <> prod_at q}) by (apply list_eq_dec, list_eq_dec, Z.eq_dec).
    destruct DEC as [E|NE].
    + left. unfold good. rewrite <- E, <- C1, <- C2. now destruct (claimed q).
    + right. split; auto. split; [|exact H0]. intros IP. apply NE. unfold prod_at. apply (claimed_product p c k s); auto.
  - left. rewrite matmul_fmat in H. cbn [accepts] in H. now rewrite <- H.
Qed.
Lemma core_run q : reps = 0%nat -> run honest_hint (table_rowsb c F) (core q) = Some (good q).
Proof.
  intros ->. unfold core, matmul_2d_core, A, W. cbv zeta. cbn [operand_matrix m_rows m_cols].
  change (should_use_freivalds m d n 0) with false. cbn [Nat.ltb Nat.leb andb]. now rewrite matmul_fmat.
Qed.
Lemma finish_inv slices t : accepts p (table_rows c F) (finish slices) t ->
  t = {| dims := o ++ [m; n]; flat := concat (map (fun r => concat (m_data r)) slices) |}.
Proof.
  unfold finish, from_shape_vec. destruct (_ =? prod [prod o; m; n])%nat; [|intros []]. cbn [lift bind flat].
  destruct (_ =? prod (o ++ [m; n]))%nat; [|intros []]. cbn [lift accepts]. congruence.
Qed.
Lemma goods_flat : concat (map (fun r => concat (m_data r)) (map good (seq 0 (prod o)))) = map (enc p) (flat y).
Proof. rewrite map_map. symmetry. exact y_flat_slices. Qed.
Lemma encoded_y : {| dims := o ++ [m; n]; flat := map (enc p) (flat y) |} = encoded p y.
Proof. destruct y_facts as (D & _). unfold encoded. now rewrite D. Qed.
Lemma finish_run : run honest_hint (table_rowsb c F) (finish (map good (seq 0 (prod o)))) = Some (encoded p y).
Proof.
  destruct y_facts as (D & WY & _). unfold finish. rewrite goods_flat. unfold from_shape_vec. rewrite map_length.
  assert (L : (length (flat y) =? prod [prod o; m; n])%nat = true).
  { apply Nat.eqb_eq. rewrite WY, D, prod_app. unfold prod. cbn [fold_right]. lia. }
  rewrite L. cbn [lift bind flat]. rewrite map_length, <- D, (proj2 (Nat.eqb_eq _ _) WY). cbn [lift run]. rewrite D. now rewrite encoded_y.
Qed.
Lemma all_good l rs : claims_fit -> (forall q, In q l -> (q < prod o)%nat) -> Forall2 (fun q r => accepts p (table_rows c F) (core q) r) l rs ->
  rs = map good l \/ exists q, (q < prod o)%nat /\ bad q.
Proof.
  intros CF H. induction 1 as [|q r l rs H1 H2 IH]; [now left|]. destruct IH as [->|B]; [intros; apply H; now right| |now right].
  destruct (core_result q r CF) as [->|B]; auto; [apply H; now left|]. right. exists q. split; auto. apply H. now left.
Qed.

(** The layer before rescaling *)
Let layer_core := if ((length (dims (encoded p a)) <=? 2) && (length (dims (encoded p w)) <=? 2))%nat
    then apply_2d p reps claimed challenges (encoded p a) (encoded p w) else apply_nd_batched p reps claimed challenges (encoded p a) (encoded p w).
Lemma flat_steps : ((length (dims (encoded p a)) <=? 2) && (length (dims (encoded p w)) <=? 2))%nat = true -> prod o = 1%nat /\ o = [] /\
  layer_core = bind (core 0%nat) (fun r => Ret {| dims := [m_rows r; m_cols r]; flat := concat (m_data r) |}).
Proof.
  intros H. unfold layer_core. rewrite H. apply andb_prop in H as (H1 & H2). destruct OP as (Wa & Ww & Da & Dw). cbn [encoded dims] in H1, H2.
  rewrite Da in H1. rewrite Dw in H2. apply Nat.leb_le in H1, H2. rewrite app_length in H1, H2. cbn [length] in H1, H2.
  assert (Ea : ba = []) by (destruct ba; cbn [length] in H1; [reflexivity|lia]). assert (Eb : bb = []) by (destruct bb; cbn [length] in H2; [reflexivity|lia]).
  assert (Eo : o = []) by (unfold o; now rewrite Eb). split; [now rewrite Eo|]. split; [exact Eo|].
  unfold apply_2d. cbn [encoded dims flat]. rewrite Da, Dw, Ea, Eb. cbn [app]. rewrite Nat.eqb_refl. cbn [negb].
  rewrite (slice_matrix a [] m d 0) by (auto; try (now rewrite Da, Ea); cbn; lia). rewrite (slice_matrix w [] d n 0) by (auto; try (now rewrite Dw, Eb); cbn; lia).
  unfold core, A, W, ia, ib. rewrite Ea, Eb. reflexivity.
Qed.
Lemma layer_core_sound t : claims_fit -> accepts p (table_rows c F) layer_core t -> t = encoded p y \/ exists q, (q < prod o)%nat /\ bad q.
Proof.
  intros CF H. destruct (Sumbool.sumbool_of_bool ((length (dims (encoded p a)) <=? 2) && (length (dims (encoded p w)) <=? 2))%nat) as [E|E].
  - destruct (flat_steps E) as (P1 & Eo & St). rewrite St, accepts_bind in H. destruct H as (r & H1 & H2). cbn [accepts] in H2.
    destruct (core_result 0 r CF ltac:(lia) H1) as [Er|B]; [|right; exists 0%nat; split; [lia|exact B]]. left. rewrite <- H2, Er, <- encoded_y.
    cbn [good m_rows m_cols m_data]. rewrite <- goods_flat, P1, Eo. cbn [seq map concat good m_data app]. now rewrite app_nil_r.
  - unfold layer_core in H. rewrite E, nd_steps, accepts_bind in H. destruct H as (rs & H1 & H2). apply finish_inv in H2. apply accepts_mapM in H1.
    destruct (all_good (seq 0 (prod o)) rs CF) as [Er|B]; auto; [intros q Hq; apply in_seq in Hq; lia|]. left. now rewrite H2, Er, goods_flat, encoded_y.
Qed.
Lemma layer_core_run : reps = 0%nat -> run honest_hint (table_rowsb c F) layer_core = Some (encoded p y).
Proof.
  intros R0. destruct (Sumbool.sumbool_of_bool ((length (dims (encoded p a)) <=? 2) && (length (dims (encoded p w)) <=? 2))%nat) as [E|E].
  - destruct (flat_steps E) as (P1 & Eo & St). rewrite St, run_bind, (core_run 0 R0). cbn [run good m_rows m_cols m_data]. rewrite <- encoded_y.
    rewrite <- goods_flat, P1, Eo. cbn [seq map concat good m_data app]. now rewrite app_nil_r.
  - unfold layer_core. rewrite E, nd_steps, run_bind, (run_mapM _ _ _ _ core good) by (intros; now apply core_run). apply finish_run.
Qed.
Lemma matmul_sound out : (k mod c = 0)%nat -> ((s + 1) mod c = 0)%nat -> claims_fit ->
  accepts p (table_rows c F) (matmul_layer p c reps is_rescale k (s + 1) claimed challenges (encoded p a) (encoded p w)) out ->
  out = encoded p (after_layer k is_rescale false y) \/ exists q, (q < prod o)%nat /\ bad q.
Proof.
  intros M1 M2 CF H. unfold matmul_layer in H. fold layer_core in H. rewrite accepts_bind in H. destruct H as (t & H1 & H2).
  destruct (layer_core_sound t CF H1) as [->|B]; [left|now right]. cbn [encoded flat dims] in H2. rewrite accepts_bind in H2. destruct H2 as (u & H2 & H3).
  cbn [accepts] in H3. apply (maybe_rescale_exact p c F k s is_rescale false (flat y)) in H2; auto. subst. unfold encoded, after_layer. cbn [dims flat].
  now rewrite map_map.
Qed.
Lemma matmul_run : reps = 0%nat ->
  run honest_hint (table_rowsb c F) (matmul_layer p c reps is_rescale k (s + 1) claimed challenges (encoded p a) (encoded p w)) =
  Some (encoded p (after_layer k is_rescale false y)).
Proof.
  intros R0. unfold matmul_layer. fold layer_core. rewrite run_bind, layer_core_run by auto. cbn [encoded flat dims]. rewrite run_bind.
  rewrite (maybe_rescale_run p c F k s is_rescale false (flat y)) by auto. cbn [run]. unfold encoded, after_layer. cbn [dims flat]. now rewrite map_map.
Qed.
(** A slice in terms of the tensor *)
Lemma slice_rows b : in_range b o -> batch_modulo p a (read_coords b ba) m d (m_data (A (row_major b o))) /\
  batch_modulo p w (read_coords b bb) d n (m_data (W (row_major b o))).
Proof.
  intros Rb. destruct OP as (Wa & Ww & Da & Dw). destruct (ia_ok b Rb) as (R1 & E1). destruct (ib_ok b Rb) as (R2 & E2).
  split; unfold batch_modulo, A, W, operand_matrix; cbn [m_data]; unfold fmat; apply map_ext_in; intros i Hi; apply map_ext_in; intros j Hj; apply in_seq in Hi, Hj;
    unfold operand, enc; f_equal; [apply (sliced_mat a ba)|apply (sliced_mat w bb)]; auto; lia.
Qed.
Lemma announced : infer_matmul (dims a) (dims w) = Some (dims y).
Proof.
  destruct y_facts as (D & _). destruct OP as (_ & _ & Da & Dw). rewrite D, Da, Dw. destruct G as (_ & o' & B & D' & _).
  assert (Eo : o' = o) by (destruct PB as (H & _); now apply (plain_common ba bb)). subst o'.
  assert (Ta : forall (B : list nat) u v, length (B ++ [u; v]) = S (S (length B)) /\ nth (length (B ++ [u; v]) - 2) (B ++ [u; v]) 0%nat = u /\
    nth (length (B ++ [u; v]) - 1) (B ++ [u; v]) 0%nat = v /\ firstn (length (B ++ [u; v]) - 2) (B ++ [u; v]) = B).
  { intros B0 u v. rewrite app_length. cbn [length]. replace (length B0 + 2 - 2)%nat with (length B0) by lia. replace (length B0 + 2 - 1)%nat with (length B0 + 1)%nat by lia.
    split; [lia|]. split; [rewrite app_nth2, Nat.sub_diag by lia; reflexivity|]. split; [rewrite app_nth2 by lia; replace (length B0 + 1 - length B0)%nat with 1%nat by lia; reflexivity|].
    rewrite firstn_app, Nat.sub_diag, firstn_all, app_nil_r. reflexivity. }
  assert (NV : forall (B : list nat) (u v : nat) X (f : nat -> X) (g : X), match B ++ [u; v] with [z] => f z | _ => g end = g).
  { intros [|z [|z' B0]] u v X f g; reflexivity. }
  unfold infer_matmul. rewrite !NV. destruct (Ta ba m d) as (L1 & N1 & N2 & F1). destruct (Ta bb d n) as (L2 & N3 & N4 & F2).
  rewrite N1, N2, N3, N4, F1, F2, Nat.eqb_refl, L1, L2. cbn [Nat.ltb Nat.leb orb negb app]. cbv zeta.
  apply broadcast_shapes_ok in B. unfold o in *. destruct ba as [|b0 ba'], bb as [|c0 bb']; cbn [is_empty andb Array.obind]; try reflexivity.
  now rewrite B.
Qed.
End M.

Lemma matmul_layer_sound p c F k s is_rescale ba bb m d n a w y reps claimed challenges out :
  prime p -> (0 < c)%nat -> (k < 32)%nat -> (s < 64)%nat -> width_ok c k -> width_ok c (s + 1) ->
  2 * (2 ^ Z.of_nat k * 2 ^ Z.of_nat (rounded c (s + 1)) + 2 ^ Z.of_nat (rounded c k)) <= p ->
  (k mod c = 0)%nat -> ((s + 1) mod c = 0)%nat ->
  matmul_operands ba bb m d n a w -> plain_batches ba bb -> matmul ba bb m d n a w y ->
  Forall (layer_range k s is_rescale false) (flat y) ->
  (forall q, m_rows (claimed q) = m /\ m_cols (claimed q) = n /\ is_matrix p m n (m_data (claimed q))) ->
  accepts p (table_rows c F) (matmul_layer p c reps is_rescale k (s + 1) claimed challenges (encoded p a) (encoded p w)) out ->
  out = encoded p (after_layer k is_rescale false y) \/
  exists o b A W, let q := row_major b o in dims y = o ++ [m; n] /\ in_range b o /\
    batch_modulo p a (read_coords b ba) m d (m_data A) /\ batch_modulo p w (read_coords b bb) d n (m_data W) /\
    should_use_freivalds m d n reps = true /\
    ~ is_product p m d n (m_data A) (m_data W) (m_data (claimed q)) /\
    accepts p (table_rows c F) (freivalds p A W (claimed q) (challenges q)) tt.
Proof.
  intros Hp Hc Hk Hs W1 W2 Big M1 M2 OP PB G R CF H.
  destruct (matmul_sound p c F k s is_rescale Hp Hc Hk Hs W1 W2 Big ba bb m d n a w y OP PB G R reps claimed challenges out M1 M2) as [E|(q & Q & B)]; auto.
  { intros q _. apply CF. }
  right. destruct (cover _ q Q) as (b & Rb & Eq). destruct B as (U & NP & AC). eexists _, b, _, _. cbv zeta. subst q.
  split; [exact (proj1 (y_facts ba bb m d n a w y PB G))|]. split; [exact Rb|].
  destruct (slice_rows p c k s Hc Hk Hs ba bb m d n a w y OP PB G b Rb) as (S1 & S2). split; [exact S1|]. split; [exact S2|]. split; [exact U|]. split; [exact NP|exact AC].
Qed.
Lemma matmul_layer_run p c F k s is_rescale ba bb m d n a w y claimed challenges :
  prime p -> (0 < c)%nat -> (k < 32)%nat -> (s < 64)%nat -> width_ok c k -> width_ok c (s + 1) ->
  2 * (2 ^ Z.of_nat k * 2 ^ Z.of_nat (rounded c (s + 1)) + 2 ^ Z.of_nat (rounded c k)) <= p ->
  matmul_operands ba bb m d n a w -> plain_batches ba bb -> matmul ba bb m d n a w y ->
  Forall (layer_range k s is_rescale false) (flat y) ->
  run honest_hint (table_rowsb c F) (matmul_layer p c 0 is_rescale k (s + 1) claimed challenges (encoded p a) (encoded p w)) =
  Some (encoded p (after_layer k is_rescale false y)).
Proof. intros Hp Hc Hk Hs W1 W2 Big OP PB G R. now apply (matmul_run p c F k s is_rescale Hp Hc Hk Hs W1 W2 Big ba bb m d n a w y). Qed.
Lemma matmul_announced ba bb m d n a w y : matmul_operands ba bb m d n a w -> plain_batches ba bb -> matmul ba bb m d n a w y ->
  infer_matmul (dims a) (dims w) = Some (dims y).
Proof.
  intros OP PB G. exact (announced 2 1 0 0 Nat.lt_0_1 ltac:(lia) ltac:(lia) ba bb m d n a w y OP PB G 0%nat (fun _ => nothing) (fun _ => [])).
Qed.

(** Other batch axes are refused. *)
Lemma last_two (B : list nat) u v : length (B ++ [u; v]) = S (S (length B)) /\ nth (length (B ++ [u; v]) - 2) (B ++ [u; v]) 0%nat = u /\
  nth (length (B ++ [u; v]) - 1) (B ++ [u; v]) 0%nat = v /\ firstn (length (B ++ [u; v]) - 2) (B ++ [u; v]) = B.
Proof.
  rewrite app_length. cbn [length]. replace (length B + 2 - 2)%nat with (length B) by lia. replace (length B + 2 - 1)%nat with (length B + 1)%nat by lia.
  split; [lia|]. split; [rewrite app_nth2, Nat.sub_diag by lia; reflexivity|].
  split; [rewrite app_nth2 by lia; replace (length B + 1 - length B)%nat with 1%nat by lia; reflexivity|].
  rewrite firstn_app, Nat.sub_diag, firstn_all, app_nil_r. reflexivity.
Qed.
Lemma matmul_refused p c reps is_rescale k n_bits claimed challenges ba bb m d d' n a w :
  dims a = ba ++ [m; d] -> dims w = bb ++ [d'; n] -> d <> d' \/ (ba <> [] /\ bb <> [] /\ ba <> bb) ->
  rejected p (matmul_layer p c reps is_rescale k n_bits claimed challenges a w).
Proof.
  intros Da Dw H T out AC. unfold matmul_layer in AC. rewrite accepts_bind in AC. destruct AC as (t & AC & _).
  destruct ((length (dims a) <=? 2) && (length (dims w) <=? 2))%nat eqn:E.
  - unfold apply_2d in AC. rewrite Da, Dw in *. apply andb_prop in E as (E1 & E2). apply Nat.leb_le in E1, E2. rewrite app_length in E1, E2. cbn [length] in E1, E2.
    destruct ba; [|cbn [length] in E1; lia]. destruct bb; [|cbn [length] in E2; lia]. cbn [app] in AC.
    destruct (Nat.eqb_spec d d') as [->|NE]; [|exact AC]. destruct H as [H|(H & _)]; congruence.
  - unfold apply_nd_batched in AC. rewrite Da, Dw in *. destruct (last_two ba m d) as (L1 & N1 & N2 & F1). destruct (last_two bb d' n) as (L2 & N3 & N4 & F2).
    cbv zeta in AC. rewrite N1, N2, N3, N4, F1, F2, L1, L2 in AC. cbn [Nat.ltb Nat.leb orb] in AC.
    destruct (Nat.eqb_spec d d') as [->|NE]; [cbn [negb] in AC|exact AC]. destruct H as [H|(H1 & H2 & H3)]; [congruence|].
    destruct (list_eq_dec Nat.eq_dec ba bb) as [?|_]; [congruence|]. destruct ba; [congruence|]. destruct bb; [congruence|]. exact AC.
Qed.
(** A vector is refused too. *)
Lemma matmul_vector_refused p c reps is_rescale k n_bits claimed challenges a w v :
  dims a = [v] \/ dims w = [v] -> rejected p (matmul_layer p c reps is_rescale k n_bits claimed challenges a w).
Proof.
  intros H T out AC. unfold matmul_layer in AC. rewrite accepts_bind in AC. destruct AC as (t & AC & _).
  destruct ((length (dims a) <=? 2) && (length (dims w) <=? 2))%nat.
  - unfold apply_2d in AC. destruct H as [H|H]; rewrite H in AC; [exact AC|]. destruct (dims a) as [|? [|? [|? ?]]]; exact AC.
  - unfold apply_nd_batched in AC. destruct H as [H|H]; rewrite H in AC; [exact AC|]. cbv zeta in AC. cbn [length Nat.ltb Nat.leb] in AC. rewrite orb_true_r in AC. exact AC.
Qed.
Lemma matmul_broadcast_refused p c reps is_rescale k n_bits claimed challenges : exists a w y,
  matmul_operands [1%nat] [2%nat] 1 1 1 a w /\ matmul [1%nat] [2%nat] 1 1 1 a w y /\ infer_matmul (dims a) (dims w) = Some (dims y) /\
  rejected p (matmul_layer p c reps is_rescale k n_bits claimed challenges (encoded p a) (encoded p w)).
Proof.
  exists {| dims := [1; 1; 1]%nat; flat := [2] |}, {| dims := [2; 1; 1]%nat; flat := [3; 5] |}, {| dims := [2; 1; 1]%nat; flat := [6; 10] |}.
  split; [repeat split|]. split; [|split; [reflexivity|apply (matmul_refused p c reps is_rescale k n_bits claimed challenges [1%nat] [2%nat] 1 1 1 1); try reflexivity;
    right; repeat split; discriminate]].
  split; [reflexivity|]. exists [2%nat]. split; [apply broadcast_shapes_ok; reflexivity|]. split; [reflexivity|].
  intros cc i j Rc Hi Hj. inversion Rc as [|x ? l ? Hx Rl]; subst. inversion Rl; subst.
  assert (i = 0%nat) by lia. assert (j = 0%nat) by lia. subst. destruct x as [|[|x]]; [reflexivity|reflexivity|lia].
Qed.
