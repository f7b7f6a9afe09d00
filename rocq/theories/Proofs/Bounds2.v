From Coq Require Import List Arith Bool Reals String ZArith Lia Lra.
From Verif Require Import Spec.Shapes Spec.Tensors Spec.RealOps Model.Bounds Proofs.Bounds.
Import ListNotations.
Local Open Scope nat_scope.
Local Open Scope R_scope.

Section Layer.
Variables (alpha : R) (shapes : string -> option (list nat)) (env : valuation) (l : layer) (bounds : list (string * R)).
Let n := body l.
Let m i := input_bound bounds l i.
Hypothesis Hm0 : forall i, 0 <= m i.
Hypothesis Hm : forall i, within (m i) (values env n i).
Hypothesis Hw : forall s w, map_get s (weights l) = Some w -> env s = Some w.
Hypothesis Hwf : forall s t, env s = Some t -> well_formed t.

Lemma operand i x : In x (values env n i) -> Rabs x <= m i.
Proof. intros H. exact (proj1 (Forall_forall _ _) (Hm i) x H). Qed.
Lemma weight_arg i w : weight_at l i = Some w -> arg env n i = Some w.
Proof. unfold weight_at, arg. fold n. destruct (nth_error _ i); [apply Hw|discriminate]. Qed.
Lemma constant_weight i : constant_or_absent env n (weights l) i -> weight_at l i = arg env n i.
Proof.
  intros H. destruct (weight_at l i) as [w|] eqn:E; [symmetry; apply weight_arg, E|].
  destruct (arg env n i) as [t|] eqn:Ea; [exfalso|reflexivity].
  destruct (H ltac:(congruence)) as (s & Es & Hin). unfold weight_at in E. fold n in E. rewrite Es in E.
  destruct (map_get_some _ _ Hin) as [a Ha]. congruence.
Qed.
Lemma arg_wf i t : arg env n i = Some t -> well_formed t.
Proof. unfold arg. destruct (nth_error _ i); [apply Hwf|discriminate]. Qed.
Lemma optional_bias i b : constant_or_absent env n (weights l) i -> optional env n i 0 b -> Rabs b <= bias_bound l i.
Proof.
  intros H. unfold optional, bias_bound. rewrite (constant_weight i H). destruct (arg env n i) as [t|].
  - intros Hb. exact (proj1 (Forall_forall _ _) (max_abs_within (flat t)) b Hb).
  - intros ->. rewrite Rabs_R0. lra.
Qed.
Lemma optional_scale i b : constant_or_absent env n (weights l) i -> optional env n i 1 b -> Rabs b <= scale_bound l i.
Proof.
  intros H. unfold optional, scale_bound. rewrite (constant_weight i H). destruct (arg env n i) as [t|].
  - intros Hb. exact (proj1 (Forall_forall _ _) (max_abs_within (flat t)) b Hb).
  - intros ->. rewrite Rabs_R1. lra.
Qed.
Lemma bias_nonneg i : 0 <= bias_bound l i.
Proof. unfold bias_bound. destruct weight_at; [apply max_abs_nonneg|lra]. Qed.
Lemma scale_nonneg i : 0 <= scale_bound l i.
Proof. unfold scale_bound. destruct weight_at; [apply max_abs_nonneg|lra]. Qed.
Lemma weighted_bound ws v : weighted ws (values env n 0) v -> Rabs v <= l1 ws * m 0%nat.
Proof.
  intros (xs & _ & Hx & ->). apply dot_bound; [apply Hm0|]. eapply within_zero; [apply Hm0|apply Hm|exact Hx].
Qed.
Lemma plus_bound a b x y : Rabs a <= x -> Rabs b <= y -> Rabs (a + b) <= x + y.
Proof. intros. eapply Rle_trans; [apply Rabs_triang|]. lra. Qed.
Lemma mult_bound a b x y : Rabs a <= x -> Rabs b <= y -> Rabs (a * b) <= x * y.
Proof. intros. rewrite Rabs_mult. apply Rmult_le_compat; auto using Rabs_pos. Qed.
Lemma channel_nonneg i c b : max_output_channel_l1 l i c = Some b -> 0 <= b.
Proof.
  unfold max_output_channel_l1. destruct weight_at; [|discriminate]. destruct (_ || _); [discriminate|].
  destruct (negb _); [discriminate|]. intros [= <-]. apply max_list_nonneg.
Qed.
Lemma channel_ge i c b w oc : max_output_channel_l1 l i c = Some b -> weight_at l i = Some w -> (oc < c)%nat ->
  l1 (firstn (List.length (flat w) / c) (skipn (oc * (List.length (flat w) / c)) (flat w))) <= b.
Proof.
  unfold max_output_channel_l1. intros H E Hoc. rewrite E in H. destruct (_ || _); [discriminate|].
  destruct (negb _); [discriminate|]. injection H as <-. apply max_list_ge, in_map_iff. exists oc. split; [reflexivity|apply in_seq; lia].
Qed.

(** *** Convolutions *)
Lemma conv_bound j b v : kind n = Conv -> analysable alpha shapes env n (weights l) ->
  compute_layer_bound l bounds alpha = Some b -> entry env n j v -> Rabs v <= b.
Proof.
  intros K A H He. unfold analysable in A. rewrite K in A. unfold entry in He. rewrite K in He.
  unfold compute_layer_bound in H. fold n in H. rewrite K in H. destruct A as [_ A2].
  destruct He as (w & oc & bb & d & Ea & Hoc & Hb & Hd & ->).
  destruct (weight_at l 1) as [w'|] eqn:Ew; [|discriminate].
  pose proof (weight_arg _ _ Ew) as Ea'. rewrite Ea in Ea'. injection Ea' as <-.
  destruct (max_output_channel_l1 _ _ _) as [wt|] eqn:Ec; [|discriminate]. injection H as <-.
  apply plus_bound; [|apply optional_bias; assumption].
  eapply Rle_trans; [apply weighted_bound, Hd|]. apply Rmult_le_compat_r; [apply Hm0|].
  pose proof (arg_wf _ _ Ea) as W. red in W. unfold kernel.
  destruct (dims w) as [|d0 ds] eqn:Ed; cbn [hd tl] in *.
  { cbn [nth List.length Nat.leb] in Ec. pose proof (channel_ge _ _ _ _ 0%nat Ec Ew ltac:(lia)) as G.
    rewrite Nat.div_1_r in G. cbn [Nat.mul skipn] in G. eapply Rle_trans; [apply l1_firstn|]. eapply Rle_trans; [apply l1_skipn|].
    rewrite firstn_all in G. exact G. }
  destruct (4 <=? List.length (d0 :: ds)) eqn:E4.
  - cbn [nth] in Ec. pose proof (channel_ge _ _ _ _ oc Ec Ew Hoc) as G.
    replace (List.length (flat w) / d0)%nat with (prod ds) in G; [exact G|].
    rewrite W. cbn [prod fold_right]. change (fold_right Nat.mul 1%nat ds) with (prod ds). rewrite Nat.mul_comm, Nat.div_mul; lia.
  - pose proof (channel_ge _ _ _ _ 0%nat Ec Ew ltac:(lia)) as G.
    rewrite Nat.div_1_r in G. cbn [Nat.mul skipn] in G. eapply Rle_trans; [apply l1_firstn|]. eapply Rle_trans; [apply l1_skipn|].
    rewrite firstn_all in G. exact G.
Qed.
Lemma map_nth_seq (v : list R) a k : (a + k <= List.length v)%nat -> map (fun i => nth (a + i) v 0) (seq 0 k) = firstn k (skipn a v).
Proof.
  revert a v. induction k as [|k IH]; intros a v H; [reflexivity|].
  cbn [seq map]. rewrite <- seq_shift, map_map.
  replace (map (fun x => nth (a + S x) v 0) (seq 0 k)) with (map (fun i => nth (S a + i) v 0) (seq 0 k)).
  2: { apply map_ext. intros. f_equal. lia. }
  rewrite IH by lia. rewrite Nat.add_0_r.
  assert (E : skipn a v = nth a v 0 :: skipn (S a) v).
  { clear IH. revert v H. induction a as [|a IHa]; intros [|x v] H; cbn in H; try lia; [reflexivity|]. cbn [skipn nth]. apply IHa. lia. }
  rewrite E. reflexivity.
Qed.
Lemma conv_transpose_bound j b v : kind n = ConvTranspose -> analysable alpha shapes env n (weights l) ->
  compute_layer_bound l bounds alpha = Some b -> entry env n j v -> Rabs v <= b.
Proof.
  intros K A H He. unfold analysable in A. rewrite K in A. unfold entry in He. rewrite K in He.
  unfold compute_layer_bound in H. fold n in H. rewrite K in H. destruct A as [A2 A3].
  destruct He as (w & oc & bb & d & Ea & Hoc & Hb & Hd & ->).
  destruct (weight_at l 1) as [w'|] eqn:Ew; [|discriminate].
  pose proof (weight_arg _ _ Ew) as Ea'. rewrite Ea in Ea'. injection Ea' as <-.
  unfold values in A3. rewrite Ea in A3. pose proof (arg_wf _ _ Ea) as W. red in W.
  assert (L : (List.length (flat w) =? 0)%nat = false) by (destruct (flat w); [congruence|reflexivity]).
  rewrite L in H. cbn [orb] in H.
  assert (Hl : forall c, (c <> 0)%nat -> (List.length (flat w) <> 0)%nat) by (destruct (flat w); [congruence|cbn; lia]).
  unfold kernel_transposed in Hd.
  destruct (dims w) as [|ci [|co ks]] eqn:Ed.
  - cbn in H, Hd. injection H as <-. pose proof (weighted_bound _ _ Hd) as B. unfold l1 in B; cbn in B. 
    apply plus_bound; [|apply optional_bias; assumption]. eapply Rle_trans; [exact B|]. rewrite Rmult_0_l.
    apply Rmult_le_pos; [apply Rmax_l|apply Hm0].
  - cbn in H, Hd. injection H as <-. pose proof (weighted_bound _ _ Hd) as B. unfold l1 in B; cbn in B. 
    apply plus_bound; [|apply optional_bias; assumption]. eapply Rle_trans; [exact B|]. rewrite Rmult_0_l.
    apply Rmult_le_pos; [apply Rmax_l|apply Hm0].
  - cbn [nth] in Hoc. cbn [List.length Nat.leb nth skipn] in H.
    assert (Ek : (if (2 <? S (S (List.length ks)))%nat then prod ks else 1%nat) = prod ks).
    { destruct ks; reflexivity. }
    rewrite Ek in H. replace (co =? 0)%nat with false in H by (symmetry; apply Nat.eqb_neq; lia).
    assert (Wp : List.length (flat w) = (ci * (co * prod ks))%nat) by (rewrite W; reflexivity).
    replace (prod ks =? 0)%nat with false in H.
    2: { symmetry. apply Nat.eqb_neq. intros E. rewrite E in Wp. apply (Hl 1%nat); [lia|rewrite Wp; lia]. }
    injection H as <-. apply plus_bound; [|apply optional_bias; assumption].
    eapply Rle_trans; [apply weighted_bound, Hd|]. apply Rmult_le_compat_r; [apply Hm0|].
    apply max_list_ge, in_map_iff. exists oc. split; [|apply in_seq; lia]. f_equal. 
    rewrite !flat_map_concat_map. f_equal. apply map_ext_in. intros i Hi. apply in_seq in Hi.
    apply map_nth_seq. rewrite Wp. assert (i * co + oc + 1 <= ci * co)%nat by nia.
    assert ((i * co + oc + 1) * prod ks <= ci * co * prod ks)%nat by (apply Nat.mul_le_mono_r; assumption). nia.
Qed.

(** *** Matrix products *)
Lemma gemm_bound j b v : kind n = Gemm -> analysable alpha shapes env n (weights l) ->
  compute_layer_bound l bounds alpha = Some b -> entry env n j v -> Rabs v <= b.
Proof.
  intros K A H He. unfold analysable in A. rewrite K in A. unfold entry in He. rewrite K in He.
  unfold compute_layer_bound in H. fold n in H. rewrite K in H.
  destruct He as (w & c & bb & xs & Ea & Hd & Hc & _ & Hx & Hb & ->).
  destruct (weight_at l 1) as [w'|] eqn:Ew; [|discriminate].
  pose proof (weight_arg _ _ Ew) as Ea'. rewrite Ea in Ea'. injection Ea' as <-.
  pose proof (arg_wf _ _ Ea) as W. red in W.
  destruct (dims w) as [|r0 [|c0 [|]]] eqn:Ed; try discriminate Hd. cbn in W.
  cbn [List.length Nat.leb nth] in H.
  assert (D : Rabs (dot (if trans_b n then row w c else column w 0 c) xs) <= l1 (if trans_b n then row w c else column w 0 c) * m 0%nat).
  { apply dot_bound; [apply Hm0|]. eapply within_in; [apply Hm|exact Hx]. }
  destruct (trans_b n).
  - destruct (max_output_channel_l1 _ _ _) as [wl|] eqn:Ec; [|discriminate]. injection H as <-.
    apply plus_bound; [|apply optional_bias; assumption]. eapply Rle_trans; [exact D|]. apply Rmult_le_compat_r; [apply Hm0|].
    unfold rows in Hc. rewrite Ed in Hc. cbn in Hc.
    pose proof (channel_ge _ _ _ _ c Ec Ew Hc) as G. unfold row. rewrite Ed. cbn [last].
    replace (List.length (flat w) / r0)%nat with c0 in G; [exact G|]. rewrite W. rewrite Nat.mul_comm, Nat.div_mul; lia.
  - destruct (_ || _ || _); [discriminate|]. injection H as <-.
    apply plus_bound; [|apply optional_bias; assumption]. eapply Rle_trans; [exact D|]. apply Rmult_le_compat_r; [apply Hm0|].
    unfold columns in Hc. rewrite Ed in Hc. cbn in Hc. unfold column. rewrite Ed. cbn [rev app].
    apply max_list_ge, in_map_iff. exists c. split; [reflexivity|apply in_seq; lia].
Qed.
Lemma last_rev (d : list nat) x r : rev d = x :: r -> last d 1%nat = x.
Proof. intros H. rewrite <- (rev_involutive d), H. cbn. apply last_last. Qed.
Lemma prod_rev2 d x y r : rev d = x :: y :: r -> prod d = (prod (rev r) * (y * x))%nat.
Proof. intros H. rewrite <- (rev_involutive d), H. cbn [rev]. rewrite !prod_app. cbn. lia. Qed.
Lemma rank_rev (t : tensor R) x y r : rev (dims t) = x :: y :: r -> (2 <= List.length (dims t))%nat /\ columns t = x /\ rows t = y.
Proof.
  intros H. assert (L : (2 <= List.length (dims t))%nat) by (rewrite <- rev_length, H; cbn; lia). split; [exact L|].
  unfold columns, rows. rewrite H. split; [|reflexivity].
  destruct (dims t) as [|a [|b d]] eqn:E; cbn [List.length] in L; try lia. apply (last_rev _ _ _ H).
Qed.
Lemma right_const_bound w mm c : well_formed w -> dims w <> [] -> (c < columns w)%nat -> (mm * (rows w * columns w) < List.length (flat w))%nat ->
  let vals := flat w in let d := dims w in
  let n_out := if (2 <=? List.length d)%nat then last d 1%nat else 1%nat in
  let per_out := if (0 <? n_out)%nat then (List.length vals / n_out)%nat else 1%nat in
  l1 (column w mm c) <= (if (0 <? n_out)%nat && (0 <? per_out)%nat
              then max_list (map (fun c => l1 (strided vals c n_out)) (seq 0 n_out))
              else max_abs vals).
Proof.
  intros W Hd Hc Hmm. cbv zeta. red in W.
  destruct (rev (dims w)) as [|x [|y r]] eqn:Er.
  - destruct Hd. rewrite <- (rev_involutive (dims w)), Er. reflexivity.
  - assert (Ed : dims w = [x]) by (rewrite <- (rev_involutive (dims w)), Er; reflexivity).
    unfold column, columns, rows in *. rewrite Er. rewrite Ed in *. cbn [List.length Nat.leb] in *. change (0 <? 1)%nat with true. cbv iota. rewrite Nat.div_1_r.
    assert (L : (0 < List.length (flat w))%nat) by lia. replace (0 <? List.length (flat w))%nat with true by (symmetry; apply Nat.ltb_lt, L).
    cbn [andb]. apply max_list_ge, in_map_iff. exists 0%nat. split; [|cbn; auto].
    f_equal. rewrite (strided_eq _ 0 1 (List.length (flat w))) by lia.
    transitivity (map (fun i => nth (0 + i) (flat w) 0) (seq 0 (List.length (flat w)))).
    { apply map_ext. intros. f_equal. lia. }
    rewrite map_nth_seq by lia. cbn [skipn]. apply firstn_all.
  - destruct (rank_rev _ _ _ _ Er) as (L2 & Ec & Ero). rewrite Ec in Hc. rewrite Ec, Ero in Hmm. pose proof (last_rev _ _ _ Er) as El.
    pose proof (prod_rev2 _ _ _ _ Er) as Ep. unfold column. rewrite Er.
    replace (2 <=? List.length (dims w))%nat with true by (symmetry; apply Nat.leb_le, L2). rewrite El.
    assert (Hlen : List.length (flat w) = (prod (rev r) * y * x)%nat) by (rewrite W, Ep; lia).
    assert (Hb : (mm < prod (rev r))%nat).
    { apply Nat.nle_gt. intros G. apply (Nat.mul_le_mono_r _ _ (y * x)) in G. lia. }
    replace (0 <? x)%nat with true by (symmetry; apply Nat.ltb_lt; lia).
    rewrite Hlen, Nat.div_mul by lia.
    destruct (Nat.eq_dec y 0) as [->|Hy].
    { cbn. unfold l1; cbn. rewrite Nat.mul_0_r. cbn [Nat.ltb Nat.leb]. apply max_abs_nonneg. }
    replace (0 <? prod (rev r) * y)%nat with true by (symmetry; apply Nat.ltb_lt; nia). cbn [andb].
    eapply Rle_trans; [apply (l1_column (flat w) c x (prod (rev r) * y)); [lia|exact Hlen|nia]|].
    apply max_list_ge, in_map_iff. exists c. split; [reflexivity|apply in_seq; lia].
Qed.
Lemma dot_comm ws xs : dot ws xs = dot xs ws.
Proof. unfold dot, map2. revert xs. induction ws as [|w ws IH]; intros [|x xs]; cbn; try reflexivity. unfold sum in IH. rewrite IH. cbn. lra. Qed.
Lemma row_in t r x : In x (row t r) -> In x (flat t).
Proof.
  unfold row. intros H. rewrite <- (firstn_skipn (r * last (dims t) 1%nat) (flat t)). apply in_or_app. right.
  set (k := last (dims t) 1%nat) in *. rewrite <- (firstn_skipn k (skipn _ _)). apply in_or_app. left. exact H.
Qed.
Lemma column_in t b c x : well_formed t -> dims t <> [] -> (c < columns t)%nat -> (b * (rows t * columns t) < List.length (flat t))%nat ->
  In x (column t b c) -> In x (flat t).
Proof.
  intros W Hd Hc Hb. red in W. unfold column. destruct (rev (dims t)) as [|z [|y r]] eqn:Er; auto.
  destruct (rank_rev _ _ _ _ Er) as (L2 & Ec & Ero). rewrite Ec in Hc. rewrite Ec, Ero in Hb.
  pose proof (prod_rev2 _ _ _ _ Er) as Ep. intros Hx. apply in_map_iff in Hx. destruct Hx as (i & <- & Hi). apply in_seq in Hi.
  apply nth_In. rewrite W, Ep in *.
  assert (b < prod (rev r))%nat by (apply Nat.nle_gt; intros G; apply (Nat.mul_le_mono_r _ _ (y * z)) in G; lia).
  assert (b * y + i < prod (rev r) * y)%nat by nia. nia.
Qed.
Lemma row_length t r : (List.length (row t r) <= last (dims t) 1%nat)%nat.
Proof. unfold row. rewrite firstn_length. lia. Qed.
Lemma left_const_bound w r : well_formed w -> (2 <= List.length (dims w))%nat -> (r * last (dims w) 1%nat < List.length (flat w))%nat ->
  let vals := flat w in let d := dims w in
  let n_cols := if (2 <=? List.length d)%nat then last d 1%nat else 1%nat in
  let n_rows := if (0 <? n_cols)%nat then (List.length vals / n_cols)%nat else 1%nat in
  l1 (row w r) <= (if (0 <? n_rows)%nat && (0 <? n_cols)%nat
                then max_list (map (fun r => l1 (firstn n_cols (skipn (r * n_cols) vals))) (seq 0 n_rows))
                else max_abs vals).
Proof.
  intros W L2 Hr. cbv zeta. red in W. replace (2 <=? List.length (dims w))%nat with true by (symmetry; apply Nat.leb_le, L2).
  unfold row. destruct (rev (dims w)) as [|x [|y rr]] eqn:Er.
  { rewrite <- rev_length, Er in L2. cbn in L2. lia. } { rewrite <- rev_length, Er in L2. cbn in L2. lia. }
  pose proof (last_rev _ _ _ Er) as El. rewrite El in *. pose proof (prod_rev2 _ _ _ _ Er) as Ep.
  assert (Hlen : List.length (flat w) = (prod (rev rr) * y * x)%nat) by (rewrite W, Ep; lia).
  destruct (Nat.eq_dec x 0) as [->|Hx]; [rewrite Hlen in Hr; lia|].
  replace (0 <? x)%nat with true by (symmetry; apply Nat.ltb_lt; lia).
  rewrite Hlen in Hr |- *. rewrite Nat.div_mul by lia.
  assert (r < prod (rev rr) * y)%nat by nia.
  replace (0 <? prod (rev rr) * y)%nat with true by (symmetry; apply Nat.ltb_lt; lia). cbn [andb].
  apply max_list_ge, in_map_iff. exists r. split; [reflexivity|apply in_seq; lia].
Qed.
End Layer.
