From Coq Require Import List Arith Lia Bool ZArith.
From Verif Require Import Base.Array Spec.Merkle Model.Merkle.
Import ListNotations.

Section Proofs.
Variable H : bytes -> bytes.
Notation subtree := (subtree H). Notation climb := (climb H). Notation climb_msgs := (climb_msgs H).
Notation subtree_msgs := (subtree_msgs H).

Lemma pow2_pos n : 0 < 2 ^ n.
Proof. assert (2 ^ n <> 0) by (apply Nat.pow_nonzero; lia). lia. Qed.

Lemma nth_leaf (l : list bytes) i : i < length l -> nth_error l i = Some (nth i l []).
Proof. intros Hi. now apply nth_error_nth'. Qed.

Lemma levels_map n i : levels n (2 ^ i - 1) = map (fun j => 2 ^ j - 1) (seq i n).
Proof.
  revert i. induction n as [|n IH]; intros i; cbn [levels seq map]; auto. f_equal.
  rewrite <- IH. f_equal. unfold left_child_index. pose proof (pow2_pos i). cbn [Nat.pow]. lia.
Qed.

(** ** Building the tree *)
Definition filled (k lo : nat) (leaf : nat -> bytes) (ns : list bytes) : Prop :=
  length ns = 2 ^ k - 1 /\
  forall j q, lo <= j < k -> q < 2 ^ j -> nth_error ns (2 ^ j - 1 + q) = Some (subtree leaf (k - j) q).

Lemma fill_level k j leaf ns : S j < k -> filled k (S j) leaf ns ->
  exists ns', for_in (seq (2 ^ j - 1) (left_child_index (2 ^ j - 1) - (2 ^ j - 1))) (fun i ns =>
        let left := left_child_index i in
        let* a := aget ns left in
        let* b := aget ns (left + 1) in
        aset ns i (node_hash H a b)) ns = Some ns' /\ filled k j leaf ns'.
Proof.
  intros Hj (L & F). pose proof (pow2_pos j) as P.
  assert (PS : 2 ^ S j = 2 * 2 ^ j) by apply Nat.pow_succ_r'.
  assert (PK : 2 ^ S (S j) <= 2 ^ k) by (apply Nat.pow_le_mono_r; lia).
  rewrite Nat.pow_succ_r' in PK.
  replace (left_child_index (2 ^ j - 1) - (2 ^ j - 1)) with (2 ^ j) by (unfold left_child_index; lia).
  destruct (for_seq (fun i ns => length ns = 2 ^ k - 1 /\
      (forall j' q, S j <= j' < k -> q < 2 ^ j' -> nth_error ns (2 ^ j' - 1 + q) = Some (subtree leaf (k - j') q)) /\
      (forall q, 2 ^ j - 1 + q < i -> nth_error ns (2 ^ j - 1 + q) = Some (subtree leaf (k - j) q)))
    (fun i ns =>
        let left := left_child_index i in
        let* a := aget ns left in
        let* b := aget ns (left + 1) in
        aset ns i (node_hash H a b)) (2 ^ j - 1) (2 ^ j) ns) as (ns' & E & L' & F1 & F2).
  - split; auto. split; auto. intros q Hq. lia.
  - intros i s Hi (Ls & G1 & G2). set (q := i - (2 ^ j - 1)).
    assert (Ei : i = 2 ^ j - 1 + q) by lia.
    unfold left_child_index.
    assert (A1 : aget s (2 * i + 1) = Some (subtree leaf (k - S j) (2 * q))).
    { replace (2 * i + 1) with (2 ^ S j - 1 + 2 * q) by lia. apply G1; lia. }
    assert (A2 : aget s (2 * i + 1 + 1) = Some (subtree leaf (k - S j) (2 * q + 1))).
    { replace (2 * i + 1 + 1) with (2 ^ S j - 1 + (2 * q + 1)) by lia. apply G1; lia. }
    cbv zeta. rewrite A1. cbn [obind]. rewrite A2. cbn [obind].
    destruct (aset_some s i (node_hash H (subtree leaf (k - S j) (2 * q)) (subtree leaf (k - S j) (2 * q + 1)))) as (s' & E & Ls' & N); [lia|].
    exists s'. split; auto. split; [lia|]. split.
    + intros j' q' Hj' Hq'. rewrite N.
      assert (2 ^ S j <= 2 ^ j') by (apply Nat.pow_le_mono_r; lia).
      destruct (Nat.eqb_spec (2 ^ j' - 1 + q') i); [lia|]. now apply G1.
    + intros q' Hq'. rewrite N. destruct (Nat.eqb_spec (2 ^ j - 1 + q') i) as [e|e].
      * assert (q' = q) by lia. subst q'. replace (k - j) with (S (k - S j)) by lia. reflexivity.
      * apply G2. lia.
  - exists ns'. split; auto. split; auto. intros j' q Hj' Hq.
    destruct (Nat.eq_dec j' j) as [->|]; [apply F2; lia|apply F1; lia].
Qed.

Lemma fill_levels k j leaf ns : j < k -> filled k j leaf ns ->
  exists ns', for_each (rev (map (fun j => 2 ^ j - 1) (seq 0 j))) (fun start ns =>
      let upper := left_child_index start in
      for_in (seq start (upper - start)) (fun i ns =>
        let left := left_child_index i in
        let* a := aget ns left in
        let* b := aget ns (left + 1) in
        aset ns i (node_hash H a b)) ns) ns = Some ns' /\ filled k 0 leaf ns'.
Proof.
  revert ns. induction j as [|j IH]; intros ns Hj F.
  - exists ns. auto.
  - rewrite seq_S, map_app, rev_app_distr. cbn [map rev app for_each Nat.add].
    destruct (fill_level k j leaf ns Hj F) as (ns1 & E & F1). cbv zeta in E. rewrite E. cbn [obind].
    apply IH; [lia|auto].
Qed.

Lemma last_map_seq (f : nat -> nat) n d : last (map f (seq 0 (S n))) d = f n.
Proof. rewrite seq_S, map_app. cbn. apply last_last. Qed.
Lemma removelast_map_seq (f : nat -> nat) n : removelast (map f (seq 0 (S n))) = map f (seq 0 n).
Proof. rewrite seq_S, map_app. cbn. apply removelast_last. Qed.

Lemma leaf_nodes_ok leaves k : length leaves = 2 ^ k ->
  exists ns, new_with_leaf_nodes H (map (leaf_hash H) leaves) (S k) = Some ns /\
    filled k 0 (fun i => nth i leaves []) ns.
Proof.
  intros L. unfold new_with_leaf_nodes. rewrite map_length, L.
  replace (S k - 1) with k by lia. rewrite Nat.eqb_refl. cbn [guard obind Nat.leb].
  destruct k as [|k].
  - cbn [Nat.leb]. eexists. split; [reflexivity|]. split; [reflexivity|]. intros; lia.
  - change (S (S k) <=? 1) with false. cbn [obind guard Nat.leb].
    change 0 with (2 ^ 0 - 1) at 1. change (levels (S k) 0) with (levels (S k) (2 ^ 0 - 1)).
    rewrite levels_map, last_map_seq, removelast_map_seq, repeat_length.
    pose proof (pow2_pos k) as P. assert (PS : 2 ^ S k = 2 * 2 ^ k) by apply Nat.pow_succ_r'.
    assert (EU : left_child_index (2 ^ k - 1) = 2 ^ S k - 1) by (unfold left_child_index; lia).
    rewrite EU, Nat.min_id.
    set (leaf := fun i => nth i leaves []).
    destruct (for_seq (fun i ns => length ns = 2 ^ S k - 1 /\
        (forall q, 2 ^ k - 1 + q < i -> nth_error ns (2 ^ k - 1 + q) = Some (subtree leaf 1 q)))
      (fun i ns => let li := left_child_index i - (2 ^ S k - 1) in
        let* a := aget (map (leaf_hash H) leaves) li in
        let* b := aget (map (leaf_hash H) leaves) (li + 1) in
        aset ns i (node_hash H a b)) (2 ^ k - 1) (2 ^ S k - 1 - (2 ^ k - 1)) (repeat node_default (2 ^ S k - 1)))
      as (ns1 & E1 & L1 & F1).
    + split; [apply repeat_length|]. intros q Hq. lia.
    + intros i s Hi (Ls & G). set (q := i - (2 ^ k - 1)).
      assert (G1 : forall t, t < 2 ^ S k -> aget (map (leaf_hash H) leaves) t = Some (H (leaf t))).
      { intros t Ht. unfold aget. rewrite nth_error_map, nth_leaf by lia. reflexivity. }
      cbv zeta. replace (left_child_index i - (2 ^ S k - 1)) with (2 * q) by (unfold left_child_index; lia).
      rewrite !G1 by lia. cbn [obind].
      destruct (aset_some s i (node_hash H (H (leaf (2 * q))) (H (leaf (2 * q + 1))))) as (s' & E & Ls' & N); [lia|].
      exists s'. split; auto. split; [lia|]. intros q' Hq'. rewrite N.
      destruct (Nat.eqb_spec (2 ^ k - 1 + q') i) as [e|e].
      * assert (q' = q) by lia. subst q'. reflexivity.
      * apply G. lia.
    + cbv zeta in E1 |- *. rewrite E1. cbn [obind].
      apply (fill_levels (S k) k leaf ns1); [lia|]. split; auto.
      intros j q Hj Hq. assert (j = k) by lia. subst j. replace (S k - k) with 1 by lia.
      apply F1. lia.
Qed.

Lemma log2_pow_succ k : log2 (2 ^ k + 1) = S k.
Proof.
  unfold log2. pose proof (pow2_pos k). rewrite Nat.add_1_r.
  rewrite Nat.log2_up_eqn by lia. cbn [Nat.pred]. now rewrite Nat.log2_pow2 by lia.
Qed.

Definition leaf_at (leaves : list bytes) (i : nat) : bytes := nth i leaves [].

Theorem tree_ok leaves k : length leaves = 2 ^ k ->
  exists t, new_with_leaves H leaves = Some t /\ t_leaves t = leaves /\
    forall j q, j <= k -> q < 2 ^ j ->
      nth_error (t_nodes t) (2 ^ j - 1 + q) = Some (subtree (leaf_at leaves) (k - j) q).
Proof.
  intros L. unfold new_with_leaves. rewrite L, log2_pow_succ.
  destruct (leaf_nodes_ok leaves k L) as (ns & E & Ln & F). rewrite E. cbn [obind].
  eexists. split; [reflexivity|]. split; [reflexivity|]. cbn [t_nodes].
  intros j q Hj Hq. assert (2 ^ j <= 2 ^ k) by (apply Nat.pow_le_mono_r; lia).
  destruct (Nat.eq_dec j k) as [->|Hn].
  - rewrite nth_error_app2 by lia. replace (2 ^ k - 1 + q - length ns) with q by lia.
    rewrite nth_error_map, nth_leaf by lia. rewrite Nat.sub_diag. reflexivity.
  - assert (2 ^ S j <= 2 ^ k) by (apply Nat.pow_le_mono_r; lia). rewrite Nat.pow_succ_r' in *.
    rewrite nth_error_app1 by lia. apply F; lia.
Qed.

(** ** Openings *)
Definition sib (q : nat) : nat := if Nat.odd q then q - 1 else q + 1.
Fixpoint sibs (leaf : nat -> bytes) (k j q : nat) : list bytes :=
  match j with O => [] | S j' => subtree leaf (k - j) (sib q) :: sibs leaf k j' (q / 2) end.

Lemma sibs_length leaf k j q : length (sibs leaf k j q) = j.
Proof. revert q. induction j as [|j IH]; intros q; cbn [sibs length]; auto. Qed.

Lemma odd_spec q : exists h, q = 2 * h + (if Nat.odd q then 1 else 0) /\ q / 2 = h.
Proof.
  exists (q / 2). split; auto. rewrite <- Nat.bit0_odd, Nat.bit0_eqb.
  pose proof (Nat.div_mod q 2 ltac:(lia)). pose proof (Nat.mod_upper_bound q 2 ltac:(lia)).
  destruct (Nat.eqb_spec (q mod 2) 1); lia.
Qed.

Lemma odd_heap j q : q < 2 ^ S j -> Nat.odd (2 ^ S j - 1 + q) = negb (Nat.odd q).
Proof.
  intros Hq. pose proof (pow2_pos j). rewrite Nat.pow_succ_r' in *.
  replace (2 * 2 ^ j - 1 + q) with (q + (1 + 2 * (2 ^ j - 1))) by lia.
  rewrite Nat.odd_add, Nat.odd_add_mul_2. cbn. now destruct (Nat.odd q).
Qed.

Lemma sibling_heap j q : q < 2 ^ S j -> sibling_index (2 ^ S j - 1 + q) = Some (2 ^ S j - 1 + sib q) /\ sib q < 2 ^ S j.
Proof.
  intros Hq. unfold sibling_index, is_left_child, sib. rewrite odd_heap by auto.
  pose proof (pow2_pos j). rewrite Nat.pow_succ_r' in *.
  destruct (odd_spec q) as (h & Eq & _).
  destruct (Nat.eqb_spec (2 * 2 ^ j - 1 + q) 0); [lia|].
  destruct (Nat.odd q); cbn [negb]; split; try lia; f_equal; lia.
Qed.

Lemma parent_heap j q : q < 2 ^ S j -> parent_index (2 ^ S j - 1 + q) = Some (2 ^ j - 1 + q / 2) /\ q / 2 < 2 ^ j.
Proof.
  intros Hq. unfold parent_index. pose proof (pow2_pos j). rewrite Nat.pow_succ_r' in *.
  destruct (Nat.ltb_spec 0 (2 * 2 ^ j - 1 + q)); [|lia]. split.
  - f_equal. replace (2 * 2 ^ j - 1 + q - 1) with (q + (2 ^ j - 1) * 2) by lia. rewrite Nat.div_add by lia. lia.
  - apply Nat.div_lt_upper_bound; lia.
Qed.

Lemma siblings_ok t leaf k : (forall j q, j <= k -> q < 2 ^ j -> nth_error (t_nodes t) (2 ^ j - 1 + q) = Some (subtree leaf (k - j) q)) ->
  forall j q fuel, j <= k -> q < 2 ^ j -> 2 ^ j - 1 + q <= fuel ->
  siblings fuel t (2 ^ j - 1 + q) = Some (sibs leaf k j q).
Proof.
  intros T. induction j as [|j IH]; intros q fuel Hj Hq Hf.
  - cbn in Hq. replace (2 ^ 0 - 1 + q) with 0 by (cbn; lia). destruct fuel; reflexivity.
  - destruct (sibling_heap j q Hq) as (E1 & B1). destruct (parent_heap j q Hq) as (E2 & B2).
    assert (NZ : (2 ^ S j - 1 + q =? 0) = false).
    { apply Nat.eqb_neq. pose proof (pow2_pos j). rewrite Nat.pow_succ_r'. lia. }
    destruct fuel as [|fuel]; [apply Nat.eqb_neq in NZ; lia|]. cbn [siblings]. rewrite NZ, E1. cbn [obind].
    unfold aget. rewrite T by auto. cbn [obind]. rewrite E2. cbn [obind].
    rewrite IH; [reflexivity|lia|auto|].
    pose proof (pow2_pos j). rewrite Nat.pow_succ_r' in Hf.
    assert (q / 2 <= q) by (apply Nat.div_le_upper_bound; lia). lia.
Qed.

Lemma climb_honest leaf k j : forall q, j <= k -> q < 2 ^ j ->
  climb q (subtree leaf (k - j) q) (sibs leaf k j q) = subtree leaf k 0.
Proof.
  induction j as [|j IH]; intros q Hj Hq.
  - cbn in *. replace q with 0 by lia. now rewrite Nat.sub_0_r.
  - cbn [sibs Spec.Merkle.climb]. rewrite <- (IH (q / 2)); [|lia|apply Nat.div_lt_upper_bound; [lia|rewrite Nat.pow_succ_r' in Hq; lia]].
    f_equal. replace (k - j) with (S (k - S j)) by lia. cbn [Spec.Merkle.subtree]. f_equal.
    unfold sib. destruct (odd_spec q) as (h & Eq & Eh). rewrite Eh.
    destruct (Nat.odd q); rewrite Eq; f_equal; f_equal; lia.
Qed.

Lemma path_loop_climb idx nodes : forall i cur, path_loop H idx i cur nodes = climb (idx / 2 ^ i) cur nodes.
Proof.
  induction nodes as [|n nodes IH]; intros i cur; cbn [path_loop Spec.Merkle.climb]; auto.
  rewrite IH. f_equal.
  - rewrite Nat.pow_succ_r', Nat.mul_comm, <- Nat.div_div by (try apply Nat.pow_nonzero; lia). reflexivity.
  - unfold node_hash. now destruct (Nat.odd (idx / 2 ^ i)).
Qed.

Lemma path_root_climb p : path_root H p =
  if length (p_nodes p) <? 64 then Some (climb (p_index p) (H (p_leaf p)) (rev (p_nodes p))) else None.
Proof.
  unfold path_root, guard. destruct (_ <? _); auto. cbn [obind]. rewrite path_loop_climb. cbn [Nat.pow].
  now rewrite Nat.div_1_r.
Qed.

Lemma bytes_eqb_eq a b : bytes_eqb a b = true <-> a = b.
Proof. unfold bytes_eqb. destruct (list_eq_dec Z.eq_dec a b); split; congruence. Qed.

Lemma tree_root t leaf k :
  (forall j q, j <= k -> q < 2 ^ j -> nth_error (t_nodes t) (2 ^ j - 1 + q) = Some (subtree leaf (k - j) q)) ->
  root t = Some (subtree leaf k 0).
Proof.
  intros T. pose proof (T 0 0 ltac:(lia) ltac:(cbn; lia)) as T0. rewrite Nat.sub_0_r in T0. exact T0.
Qed.

Theorem open_complete leaves k index : length leaves = 2 ^ k -> 1 <= k < 64 -> index < 2 ^ k ->
  exists t p r, new_with_leaves H leaves = Some t /\ index_query t index = Some p /\
    root t = Some r /\ r = subtree (leaf_at leaves) k 0 /\
    p_leaf p = leaf_at leaves index /\ p_index p = index /\ length (p_nodes p) = k /\
    path_verify H p r = Some true.
Proof.
  intros L Hk Hi. destruct (tree_ok leaves k L) as (t & E & Lt & T).
  exists t. unfold index_query, gen_proof, height. rewrite Lt, L, log2_pow_succ.
  unfold convert_index_to_last_level. cbn [Nat.leb guard obind]. replace (S k - 1) with k by lia.
  pose proof (pow2_pos k).
  replace (index + 2 ^ k - 1) with (2 ^ k - 1 + index) by lia.
  destruct k as [|k]; [lia|].
  destruct (sibling_heap k index Hi) as (E1 & B1). destruct (parent_heap k index Hi) as (E2 & B2).
  unfold aget. rewrite nth_leaf by lia. cbn [obind]. rewrite E1. cbn [obind].
  rewrite T by auto. cbn [obind]. rewrite E2. cbn [obind].
  rewrite (siblings_ok t (leaf_at leaves) (S k) T k (index / 2)) by lia. cbn [obind].
  eexists. exists (subtree (leaf_at leaves) (S k) 0). split; [exact E|]. split; [reflexivity|].
  split. { exact (tree_root _ _ _ T). }
  cbn [p_leaf p_index p_nodes]. split; [reflexivity|]. split; [reflexivity|]. split; [reflexivity|].
  change (subtree (leaf_at leaves) (S k - S k) (sib index) :: sibs (leaf_at leaves) (S k) k (index / 2))
    with (sibs (leaf_at leaves) (S k) (S k) index).
  split; [rewrite rev_length; apply sibs_length|].
  unfold path_verify. rewrite path_root_climb. cbn [p_leaf p_index p_nodes].
  rewrite rev_length, sibs_length, rev_involutive. destruct (Nat.ltb_spec (S k) 64); [|lia]. cbn [obind].
  f_equal. apply bytes_eqb_eq. rewrite <- (climb_honest (leaf_at leaves) (S k) (S k) index) by lia.
  now rewrite Nat.sub_diag.
Qed.

(** A single-leaf tree cannot be opened. *)
Theorem single_leaf leaf index : exists t, new_with_leaves H [leaf] = Some t /\ index_query t index = None.
Proof.
  eexists. split; [reflexivity|]. unfold index_query, gen_proof. cbn.
  unfold aget. cbn [t_leaves]. destruct index as [|[|i]]; reflexivity.
Qed.

(** ** Range openings *)
Lemma common_ancestor_ok m : forall j a fuel, m <= j -> (a + 1) * 2 ^ m <= 2 ^ j -> m <= fuel ->
  common_ancestor_loop fuel (2 ^ j - 1 + a * 2 ^ m) (2 ^ j - 1 + (a * 2 ^ m + 2 ^ m - 1)) = Some (2 ^ (j - m) - 1 + a).
Proof.
  induction m as [|m IH]; intros j a fuel Hm Hb Hf.
  - cbn [Nat.pow]. rewrite Nat.mul_1_r, Nat.sub_0_r, Nat.add_sub.
    destruct fuel; cbn [common_ancestor_loop]; now rewrite Nat.eqb_refl.
  - destruct j as [|j]; [lia|]. destruct fuel as [|fuel]; [lia|]. cbn [common_ancestor_loop].
    pose proof (pow2_pos m).
    assert (P2 : 2 ^ S m = 2 * 2 ^ m) by apply Nat.pow_succ_r'.
    assert (P3 : 2 ^ S j = 2 * 2 ^ j) by apply Nat.pow_succ_r'.
    set (r := a * 2 ^ S m + 2 ^ S m - 1). set (l := a * 2 ^ S m).
    assert (El : l = 2 * (a * 2 ^ m)) by (unfold l; rewrite P2; lia).
    assert (Er : r = 2 * (a * 2 ^ m + 2 ^ m - 1) + 1) by (unfold r; rewrite P2; lia).
    assert (Hr : r < 2 ^ S j) by (unfold r; lia).
    destruct (parent_heap j l) as (E1 & _); [unfold l, r in *; lia|].
    destruct (parent_heap j r) as (E2 & _); [lia|].
    destruct (Nat.eqb_spec (2 ^ S j - 1 + l) (2 ^ S j - 1 + r)); [lia|].
    rewrite E1, E2. cbn [obind].
    assert (Dl : l / 2 = a * 2 ^ m) by (symmetry; apply (Nat.div_unique _ _ _ 0); lia).
    assert (Dr : r / 2 = a * 2 ^ m + 2 ^ m - 1) by (symmetry; apply (Nat.div_unique _ _ _ 1); lia).
    rewrite Dl, Dr.
    rewrite IH by lia. reflexivity.
Qed.

Lemma range_loop_climb nodes : forall j q cur, q < 2 ^ j -> length nodes <= j ->
  range_loop H (2 ^ j - 1 + q) cur nodes = Some (climb q cur nodes).
Proof.
  induction nodes as [|n nodes IH]; intros j q cur Hq Hn; cbn [range_loop Spec.Merkle.climb length] in *; auto.
  destruct j as [|j]; [lia|]. unfold is_left_child. rewrite odd_heap by auto.
  destruct (parent_heap j q Hq) as (E & B). rewrite E. cbn [obind]. rewrite IH by lia. f_equal. f_equal.
  unfold node_hash. now destruct (Nat.odd q).
Qed.

Lemma subtree_ext f g d : forall q, (forall i, q * 2 ^ d <= i < (q + 1) * 2 ^ d -> f i = g i) -> subtree f d q = subtree g d q.
Proof.
  induction d as [|d IH]; intros q E; cbn [Spec.Merkle.subtree].
  - rewrite E; auto. cbn. lia.
  - assert (2 ^ S d = 2 * 2 ^ d) by apply Nat.pow_succ_r'. rewrite !IH; auto; intros i Hi; apply E; nia.
Qed.

Lemma subtree_shift f a D d : d <= D -> forall q, subtree (fun i => f (a * 2 ^ D + i)) d q = subtree f d (a * 2 ^ (D - d) + q).
Proof.
  induction d as [|d IH]; intros Hd q; cbn [Spec.Merkle.subtree].
  - now rewrite Nat.sub_0_r.
  - rewrite !IH by lia. replace (D - d) with (S (D - S d)) by lia. rewrite Nat.pow_succ_r'.
    f_equal. f_equal; f_equal; lia.
Qed.

Lemma is_power_of_two_pow m : is_power_of_two (2 ^ m) = true.
Proof.
  unfold is_power_of_two. pose proof (pow2_pos m). rewrite Nat.log2_pow2 by lia.
  rewrite Nat.eqb_refl. destruct (Nat.ltb_spec 0 (2 ^ m)); auto; lia.
Qed.

Lemma nth_firstn_lt (l : list bytes) n : forall i, i < n -> nth i (firstn n l) [] = nth i l [].
Proof.
  revert l. induction n as [|n IH]; intros [|x l] i Hi; try lia; auto.
  destruct i; cbn; auto. apply IH. lia.
Qed.
Lemma nth_skipn_add (l : list bytes) n : forall i, nth i (skipn n l) [] = nth (n + i) l [].
Proof.
  revert l. induction n as [|n IH]; intros [|x l] i; cbn; auto. now destruct i.
Qed.

Theorem range_complete leaves k m a : length leaves = 2 ^ k -> 1 <= m <= k -> (a + 1) * 2 ^ m <= 2 ^ k ->
  exists t p r, new_with_leaves H leaves = Some t /\
    range_query t (a * 2 ^ m) (a * 2 ^ m + 2 ^ m - 1) = Some p /\ root t = Some r /\
    r_leaves p = firstn (2 ^ m) (skipn (a * 2 ^ m) leaves) /\
    r_left p = a * 2 ^ m /\ r_right p = a * 2 ^ m + 2 ^ m - 1 /\
    range_verify H p r = Some true.
Proof.
  intros L Hm Ha. destruct (tree_ok leaves k L) as (t & E & Lt & T). exists t.
  pose proof (pow2_pos m). pose proof (pow2_pos k).
  assert (P2 : 2 ^ 1 <= 2 ^ m) by (apply Nat.pow_le_mono_r; lia). cbn [Nat.pow] in P2.
  unfold range_query, gen_range_proof, height. rewrite Lt, L, log2_pow_succ.
  destruct (Nat.ltb_spec (a * 2 ^ m) (a * 2 ^ m + 2 ^ m - 1)); [|lia]. cbn [guard obind].
  replace (a * 2 ^ m + 2 ^ m - 1 - a * 2 ^ m + 1) with (2 ^ m) by lia.
  rewrite is_power_of_two_pow. cbn [guard obind].
  rewrite Nat.mod_mul by lia. cbn [Nat.eqb guard obind].
  destruct (Nat.leb_spec (a * 2 ^ m + 2 ^ m - 1 + 1) (2 ^ k)); [|lia]. cbn [guard obind].
  unfold convert_index_to_last_level. cbn [Nat.leb guard obind]. replace (S k - 1) with k by lia.
  replace (a * 2 ^ m + 2 ^ k - 1) with (2 ^ k - 1 + a * 2 ^ m) by lia.
  replace (a * 2 ^ m + 2 ^ m - 1 + 2 ^ k - 1) with (2 ^ k - 1 + (a * 2 ^ m + 2 ^ m - 1)) by lia.
  assert (mk : m <= 2 ^ m) by (pose proof (Nat.pow_gt_lin_r 2 m ltac:(lia)); lia).
  unfold common_ancestor. rewrite common_ancestor_ok by lia. cbn [obind].
  assert (Sp : 2 ^ k = 2 ^ (k - m) * 2 ^ m) by (rewrite <- Nat.pow_add_r; f_equal; lia).
  assert (Ba : a < 2 ^ (k - m)) by nia.
  rewrite (siblings_ok t (leaf_at leaves) k T (k - m) a) by lia. cbn [obind].
  eexists. exists (subtree (leaf_at leaves) k 0). split; [exact E|]. split; [reflexivity|].
  split. { exact (tree_root _ _ _ T). }
  cbn [r_leaves r_left r_right]. replace (a * 2 ^ m + 2 ^ m - 1 + 1 - a * 2 ^ m) with (2 ^ m) by lia.
  split; [reflexivity|]. split; [reflexivity|]. split; [reflexivity|].
  set (sl := firstn (2 ^ m) (skipn (a * 2 ^ m) leaves)).
  assert (Lsl : length sl = 2 ^ m) by (unfold sl; rewrite firstn_length, skipn_length; lia).
  unfold range_verify, range_root. cbn [r_leaves r_nodes r_left r_right].
  destruct (tree_ok sl m Lsl) as (t2 & E2 & Lt2 & T2). rewrite E2. cbn [obind].
  unfold height. rewrite Lt2, Lsl, log2_pow_succ, rev_length, sibs_length.
  assert (R2 : root t2 = Some (subtree (leaf_at sl) m 0)).
  { exact (tree_root _ _ _ T2). }
  rewrite R2. cbn [obind]. replace (S m + (k - m)) with (S k) by lia.
  unfold convert_index_to_last_level. cbn [Nat.leb guard obind]. replace (S k - 1) with k by lia.
  replace (a * 2 ^ m + 2 ^ k - 1) with (2 ^ k - 1 + a * 2 ^ m) by lia.
  replace (a * 2 ^ m + 2 ^ m - 1 + 2 ^ k - 1) with (2 ^ k - 1 + (a * 2 ^ m + 2 ^ m - 1)) by lia.
  unfold common_ancestor. rewrite common_ancestor_ok by lia. cbn [obind].
  rewrite rev_involutive, range_loop_climb by (auto; rewrite sibs_length; lia). cbn [obind].
  f_equal. apply bytes_eqb_eq. rewrite <- (climb_honest (leaf_at leaves) k (k - m) a) by lia.
  f_equal. replace (k - (k - m)) with m by lia.
  transitivity (subtree (fun i => leaf_at leaves (a * 2 ^ m + i)) m 0).
  - apply subtree_ext. intros i Hi. unfold leaf_at, sl.
    rewrite nth_firstn_lt by lia. apply nth_skipn_add.
  - rewrite subtree_shift by lia. rewrite Nat.sub_diag. cbn [Nat.pow]. f_equal. lia.
Qed.

(** ** Binding *)
Definition path_msgs (p : path) : list bytes :=
  p_leaf p :: climb_msgs (p_index p) (H (p_leaf p)) (rev (p_nodes p)).

Lemma app_split (a b c d : bytes) : length a = length c -> a ++ b = c ++ d -> a = c /\ b = d.
Proof.
  revert c. induction a as [|x a IH]; intros [|y c] L E; try discriminate; auto.
  injection L as L. injection E as -> E. destruct (IH c L E) as (-> & ->). auto.
Qed.
Lemma app_split_r (a b c d : bytes) : length b = length d -> a ++ b = c ++ d -> a = c /\ b = d.
Proof.
  intros L E. apply app_split; auto. apply (f_equal (@length Z)) in E. rewrite !app_length in E. lia.
Qed.

Definition bdec (a b : bytes) : {a = b} + {a <> b} := list_eq_dec Z.eq_dec a b.

Hypothesis Hlen : forall m, length (H m) = 32.

Lemma climb_bind s1 : forall idx s2 c1 c2, length s1 = length s2 -> length c1 = length c2 ->
  climb idx c1 s1 = climb idx c2 s2 ->
  (c1 = c2 /\ s1 = s2) \/ collision H (climb_msgs idx c1 s1) (climb_msgs idx c2 s2).
Proof.
  induction s1 as [|a s1 IH]; intros idx [|b s2] c1 c2 Ls Lc E; try discriminate.
  - left. auto.
  - injection Ls as Ls. cbn [Spec.Merkle.climb Spec.Merkle.climb_msgs] in *.
    set (m1 := if Nat.odd idx then a ++ c1 else c1 ++ a) in *.
    set (m2 := if Nat.odd idx then b ++ c2 else c2 ++ b) in *.
    destruct (IH (idx / 2) s2 (H m1) (H m2)) as [(Em & Es)|(x & y & Hx & Hy & Hn & He)]; auto.
    + now rewrite !Hlen.
    + destruct (bdec m1 m2) as [e|n].
      * left. unfold m1, m2 in e. destruct (Nat.odd idx).
        -- apply app_split_r in e; auto. destruct e. subst. auto.
        -- apply app_split in e; auto. destruct e. subst. auto.
      * right. exists m1, m2. cbn; auto.
    + right. exists x, y. cbn; auto.
Qed.

Theorem path_binding p1 p2 r : length (p_nodes p1) = length (p_nodes p2) -> p_index p1 = p_index p2 ->
  path_verify H p1 r = Some true -> path_verify H p2 r = Some true ->
  (p_leaf p1 = p_leaf p2 /\ p_nodes p1 = p_nodes p2) \/ collision H (path_msgs p1) (path_msgs p2).
Proof.
  intros Ln Ei V1 V2. unfold path_verify in *. rewrite path_root_climb in *.
  destruct (_ <? 64); [|discriminate]. destruct (_ <? 64); [|discriminate]. cbn [obind] in *.
  injection V1 as V1. injection V2 as V2. apply bytes_eqb_eq in V1, V2. unfold path_msgs. rewrite <- Ei in *.
  destruct (climb_bind (rev (p_nodes p1)) (p_index p1) (rev (p_nodes p2)) (H (p_leaf p1)) (H (p_leaf p2)))
    as [(Em & Es)|(x & y & Hx & Hy & Hn & He)].
  - now rewrite !rev_length.
  - now rewrite !Hlen.
  - congruence.
  - destruct (bdec (p_leaf p1) (p_leaf p2)) as [e|n].
    + left. split; auto. rewrite <- (rev_involutive (p_nodes p1)), Es. apply rev_involutive.
    + right. exists (p_leaf p1), (p_leaf p2). cbn; auto.
  - right. exists x, y. cbn; auto.
Qed.

(** The honest climb only hashes messages of the tree. *)
Lemma msgs_child leaf d q : incl (subtree_msgs leaf d q) (subtree_msgs leaf (S d) (q / 2)).
Proof.
  intros x Hx. cbn [Spec.Merkle.subtree_msgs]. right. apply in_or_app.
  destruct (odd_spec q) as (h & Eq & ->). destruct (Nat.odd q).
  - right. now rewrite <- Eq.
  - left. rewrite Nat.add_0_r in Eq. now rewrite <- Eq.
Qed.

Lemma msgs_top leaf k j : forall q, j <= k -> q < 2 ^ j -> incl (subtree_msgs leaf (k - j) q) (subtree_msgs leaf k 0).
Proof.
  induction j as [|j IH]; intros q Hj Hq.
  - cbn in Hq. replace q with 0 by lia. rewrite Nat.sub_0_r. apply incl_refl.
  - eapply incl_tran; [apply msgs_child|]. replace (S (k - S j)) with (k - j) by lia. apply IH; [lia|].
    rewrite Nat.pow_succ_r' in Hq. apply Nat.div_lt_upper_bound; lia.
Qed.

Lemma climb_msgs_honest leaf k j : forall q, j <= k -> q < 2 ^ j ->
  incl (climb_msgs q (subtree leaf (k - j) q) (sibs leaf k j q)) (subtree_msgs leaf k 0).
Proof.
  induction j as [|j IH]; intros q Hj Hq; [intros x []|].
  cbn [sibs Spec.Merkle.climb_msgs].
  assert (Hq2 : q / 2 < 2 ^ j) by (rewrite Nat.pow_succ_r' in Hq; apply Nat.div_lt_upper_bound; lia).
  assert (Em : (if Nat.odd q then subtree leaf (k - S j) (sib q) ++ subtree leaf (k - S j) q
                else subtree leaf (k - S j) q ++ subtree leaf (k - S j) (sib q)) =
               subtree leaf (k - S j) (2 * (q / 2)) ++ subtree leaf (k - S j) (2 * (q / 2) + 1)).
  { unfold sib. destruct (odd_spec q) as (h & Eq & Eh). rewrite Eh.
    destruct (Nat.odd q); rewrite Eq; f_equal; f_equal; lia. }
  rewrite Em. apply incl_cons.
  - apply (msgs_top leaf k j (q / 2)); [lia|auto|]. replace (k - j) with (S (k - S j)) by lia. left. reflexivity.
  - specialize (IH (q / 2) ltac:(lia) Hq2). replace (k - j) with (S (k - S j)) in IH by lia. exact IH.
Qed.

(** Only the low bits of the index matter. *)
Lemma climb_mod sl : forall idx n cur, length sl <= n ->
  climb (idx mod 2 ^ n) cur sl = climb idx cur sl /\ climb_msgs (idx mod 2 ^ n) cur sl = climb_msgs idx cur sl.
Proof.
  induction sl as [|s sl IH]; intros idx n cur Hn; cbn [Spec.Merkle.climb Spec.Merkle.climb_msgs length] in *; auto.
  destruct n as [|n]; [lia|].
  assert (Eo : Nat.odd (idx mod 2 ^ S n) = Nat.odd idx).
  { rewrite <- !Nat.bit0_odd. apply Nat.mod_pow2_bits_low. lia. }
  assert (Ed : (idx mod 2 ^ S n) / 2 = (idx / 2) mod 2 ^ n).
  { rewrite Nat.pow_succ_r', Nat.mod_mul_r by (try apply Nat.pow_nonzero; lia).
    rewrite Nat.mul_comm, Nat.div_add by lia. rewrite Nat.div_small by (apply Nat.mod_upper_bound; lia). reflexivity. }
  rewrite Eo, Ed. split; [apply IH; lia|]. f_equal. apply IH. lia.
Qed.

Theorem path_position leaves k t p r : length leaves = 2 ^ k ->
  new_with_leaves H leaves = Some t -> root t = Some r ->
  length (p_nodes p) = k -> path_verify H p r = Some true ->
  p_leaf p = leaf_at leaves (p_index p mod 2 ^ k) \/
  collision H (path_msgs p) (subtree_msgs (leaf_at leaves) k 0).
Proof.
  intros L E R Ln V. destruct (tree_ok leaves k L) as (t' & E' & _ & T). rewrite E in E'. injection E' as <-.
  unfold root, aget in R. pose proof (T 0 0 ltac:(lia) ltac:(cbn; lia)) as T0. cbn [Nat.pow Nat.sub Nat.add] in T0.
  rewrite R, Nat.sub_0_r in T0. injection T0 as ->.
  unfold path_verify in V. rewrite path_root_climb in V. destruct (_ <? 64); [|discriminate]. cbn [obind] in V.
  injection V as V. apply bytes_eqb_eq in V. unfold path_msgs.
  set (i := p_index p mod 2 ^ k). set (leaf := leaf_at leaves) in *.
  assert (Hi : i < 2 ^ k) by (apply Nat.mod_upper_bound; apply Nat.pow_nonzero; lia).
  destruct (climb_mod (rev (p_nodes p)) (p_index p) k (H (p_leaf p))) as (M1 & M2); [rewrite rev_length; lia|].
  rewrite <- M1 in V. rewrite <- M2. fold i in V |- *.
  pose proof (climb_honest leaf k k i ltac:(lia) Hi) as Hh. rewrite Nat.sub_diag in Hh.
  destruct (climb_bind (rev (p_nodes p)) i (sibs leaf k k i) (H (p_leaf p)) (subtree leaf 0 i))
    as [(Em & Es)|(x & y & Hx & Hy & Hn & He)].
  - now rewrite rev_length, sibs_length.
  - cbn. now rewrite !Hlen.
  - congruence.
  - cbn in Em. destruct (bdec (p_leaf p) (leaf i)) as [e|n]; auto.
    right. exists (p_leaf p), (leaf i). split; [left; reflexivity|]. split; [|split; auto].
    apply (msgs_top leaf k k i); [lia|auto|]. rewrite Nat.sub_diag. left. reflexivity.
  - right. exists x, y. split; [right; auto|]. split; [|auto].
    pose proof (climb_msgs_honest leaf k k i ltac:(lia) Hi) as I. rewrite Nat.sub_diag in I. apply I. exact Hy.
Qed.

(** ** What an accepted path does not prove *)
Theorem index_alias p r : path_verify H p r = Some true ->
  path_verify H {| p_leaf := p_leaf p; p_nodes := p_nodes p; p_index := p_index p + 2 ^ length (p_nodes p) |} r = Some true.
Proof.
  unfold path_verify. rewrite !path_root_climb. cbn [p_leaf p_nodes p_index].
  destruct (_ <? 64); auto. cbn [obind]. intros V. rewrite <- V. f_equal. f_equal.
  destruct (climb_mod (rev (p_nodes p)) (p_index p) (length (p_nodes p)) (H (p_leaf p))) as (<- & _); [rewrite rev_length; lia|].
  destruct (climb_mod (rev (p_nodes p)) (p_index p + 2 ^ length (p_nodes p)) (length (p_nodes p)) (H (p_leaf p))) as (<- & _);
    [rewrite rev_length; lia|].
  f_equal. rewrite <- (Nat.mul_1_l (2 ^ length (p_nodes p))) at 1.
  rewrite Nat.mod_add by (apply Nat.pow_nonzero; lia). reflexivity.
Qed.

(** An inner node passes as a leaf. *)
Theorem inner_node_as_leaf l0 l1 l2 l3 :
  exists t r, new_with_leaves H [l0; l1; l2; l3] = Some t /\ root t = Some r /\
    path_verify H {| p_leaf := H l0 ++ H l1; p_nodes := [H (H l2 ++ H l3)]; p_index := 0 |} r = Some true /\
    length (H l0 ++ H l1) = 64.
Proof.
  destruct (tree_ok [l0; l1; l2; l3] 2 eq_refl) as (t & E & _ & T).
  exists t, (subtree (leaf_at [l0; l1; l2; l3]) 2 0). split; [exact E|].
  split; [exact (tree_root _ _ _ T)|]. split.
  - unfold path_verify. rewrite path_root_climb. cbn. f_equal. apply bytes_eqb_eq. reflexivity.
  - rewrite app_length, !Hlen. reflexivity.
Qed.

Theorem position_refuted : exists leaves t r p, length leaves = 4 /\ Forall (fun l => length l = 64) leaves /\
  new_with_leaves H leaves = Some t /\ root t = Some r /\ path_verify H p r = Some true /\
  length (p_leaf p) = 64 /\ p_leaf p <> leaf_at leaves (p_index p).
Proof.
  set (z := repeat 0%Z 64). set (o := repeat 1%Z 64).
  assert (Hx : exists l0, (l0 = z \/ l0 = o) /\ H l0 ++ H z <> l0).
  { destruct (bdec (H z ++ H z) z) as [e|n]; [|exists z; auto]. exists o. split; auto. intros e2.
    change z with (repeat 0%Z 32 ++ repeat 0%Z 32) in e at 3. change o with (repeat 1%Z 32 ++ repeat 1%Z 32) in e2 at 2.
    apply app_split in e; [|apply Hlen]. apply app_split in e2; [|apply Hlen].
    destruct e as (_ & e), e2 as (_ & e2). rewrite e in e2. discriminate. }
  destruct Hx as (l0 & Hl0 & Hne). destruct (inner_node_as_leaf l0 z z z) as (t & r & E & R & V & L64).
  exists [l0; z; z; z], t, r. eexists. split; [reflexivity|]. split.
  { repeat constructor. destruct Hl0 as [-> | ->]; reflexivity. }
  split; [exact E|]. split; [exact R|]. split; [exact V|]. cbn [p_leaf p_index]. split; [exact L64|exact Hne].
Qed.

(** ** Binding of range openings *)
Fixpoint range_msgs (ci : nat) (cur : bytes) (nodes : list bytes) : list bytes :=
  match nodes with
  | [] => []
  | n :: r => let m := if is_left_child ci then cur ++ n else n ++ cur in m :: range_msgs ((ci - 1) / 2) (H m) r
  end.

Lemma range_loop_bind n1 : forall ci n2 c1 c2 r, length n1 = length n2 -> length c1 = length c2 ->
  range_loop H ci c1 n1 = Some r -> range_loop H ci c2 n2 = Some r ->
  (c1 = c2 /\ n1 = n2) \/ collision H (range_msgs ci c1 n1) (range_msgs ci c2 n2).
Proof.
  induction n1 as [|a n1 IH]; intros ci [|b n2] c1 c2 r Ls Lc E1 E2; try discriminate.
  - cbn in E1, E2. left. split; congruence.
  - injection Ls as Ls. cbn [range_loop range_msgs] in *. unfold parent_index in *.
    destruct (0 <? ci); [|discriminate]. cbn [obind] in *. unfold node_hash in *.
    set (m1 := if is_left_child ci then c1 ++ a else a ++ c1).
    set (m2 := if is_left_child ci then c2 ++ b else b ++ c2).
    replace (if is_left_child ci then H (c1 ++ a) else H (a ++ c1)) with (H m1) in E1 by (unfold m1; now destruct (is_left_child ci)).
    replace (if is_left_child ci then H (c2 ++ b) else H (b ++ c2)) with (H m2) in E2 by (unfold m2; now destruct (is_left_child ci)).
    destruct (IH ((ci - 1) / 2) n2 (H m1) (H m2) r) as [(Em & Es)|(x & y & Hx & Hy & Hn & He)]; auto.
    + now rewrite !Hlen.
    + destruct (bdec m1 m2) as [e|n].
      * left. unfold m1, m2 in e. destruct (is_left_child ci).
        -- apply app_split in e; auto. destruct e. subst. auto.
        -- apply app_split_r in e; auto. destruct e. subst. auto.
      * right. exists m1, m2. cbn; auto.
    + right. exists x, y. cbn; auto.
Qed.

Lemma subtree_len f d q : length (subtree f d q) = 32.
Proof. destruct d; apply Hlen. Qed.

Lemma collision_app ms ms' ns ns' : collision H ms ms' -> incl ms ns -> incl ms' ns' -> collision H ns ns'.
Proof. intros (x & y & Hx & Hy & Hn & He) I1 I2. exists x, y. auto. Qed.

Lemma subtree_bind f g d : forall q, subtree f d q = subtree g d q ->
  (forall i, q * 2 ^ d <= i < (q + 1) * 2 ^ d -> f i = g i) \/ collision H (subtree_msgs f d q) (subtree_msgs g d q).
Proof.
  induction d as [|d IH]; intros q E; cbn [Spec.Merkle.subtree Spec.Merkle.subtree_msgs] in *.
  - destruct (bdec (f q) (g q)) as [e|n].
    + left. intros i Hi. cbn in Hi. now replace i with q by lia.
    + right. exists (f q), (g q). cbn; auto.
  - set (m1 := subtree f d (2 * q) ++ subtree f d (2 * q + 1)) in *.
    set (m2 := subtree g d (2 * q) ++ subtree g d (2 * q + 1)) in *.
    destruct (bdec m1 m2) as [e|n].
    + apply app_split in e; [|now rewrite !subtree_len]. destruct e as (e1 & e2).
      destruct (IH _ e1) as [A|C]; [|right; eapply collision_app; [exact C| |]; intros x Hx; right; apply in_or_app; auto].
      destruct (IH _ e2) as [B|C]; [|right; eapply collision_app; [exact C| |]; intros x Hx; right; apply in_or_app; auto].
      left. intros i Hi. rewrite Nat.pow_succ_r' in Hi.
      destruct (Nat.lt_ge_cases i ((2 * q + 1) * 2 ^ d)); [apply A; nia|apply B; nia].
    + right. exists m1, m2. cbn; auto.
Qed.

(** The messages hashed by RangePath::root. *)
Definition range_path_msgs (p : range_path) (m : nat) : list bytes :=
  subtree_msgs (leaf_at (r_leaves p)) m 0 ++
  match (let th := S m + length (r_nodes p) in
         let* li := convert_index_to_last_level (r_left p) th in
         let* ri := convert_index_to_last_level (r_right p) th in
         common_ancestor li ri) with
  | Some ci => range_msgs ci (subtree (leaf_at (r_leaves p)) m 0) (rev (r_nodes p))
  | None => []
  end.

Theorem range_binding p1 p2 m r :
  length (r_leaves p1) = 2 ^ m -> length (r_leaves p2) = 2 ^ m ->
  length (r_nodes p1) = length (r_nodes p2) -> r_left p1 = r_left p2 -> r_right p1 = r_right p2 ->
  range_verify H p1 r = Some true -> range_verify H p2 r = Some true ->
  (r_leaves p1 = r_leaves p2 /\ r_nodes p1 = r_nodes p2) \/
  collision H (range_path_msgs p1 m) (range_path_msgs p2 m).
Proof.
  intros L1 L2 Ln El Er V1 V2. unfold range_verify, range_root in V1, V2.
  destruct (tree_ok _ m L1) as (t1 & E1 & Lt1 & T1). destruct (tree_ok _ m L2) as (t2 & E2 & Lt2 & T2).
  assert (R : forall t l, (forall j q, j <= m -> q < 2 ^ j -> nth_error (t_nodes t) (2 ^ j - 1 + q) = Some (subtree (leaf_at l) (m - j) q)) ->
     root t = Some (subtree (leaf_at l) m 0)).
  { intros t l T. exact (tree_root _ _ _ T). }
  rewrite E1 in V1. rewrite E2 in V2. cbn [obind] in V1, V2.
  rewrite (R _ _ T1) in V1. rewrite (R _ _ T2) in V2. cbn [obind] in V1, V2.
  unfold height in V1, V2. rewrite Lt1, L1, log2_pow_succ in V1. rewrite Lt2, L2, log2_pow_succ in V2.
  unfold range_path_msgs. rewrite <- El, <- Er, <- Ln in *.
  destruct (convert_index_to_last_level (r_left p1) (S m + length (r_nodes p1))) as [li|]; [|discriminate]. cbn [obind] in *.
  destruct (convert_index_to_last_level (r_right p1) (S m + length (r_nodes p1))) as [ri|]; [|discriminate]. cbn [obind] in *.
  destruct (common_ancestor li ri) as [ci|]; [|discriminate]. cbn [obind] in *.
  destruct (range_loop H ci (subtree (leaf_at (r_leaves p1)) m 0) (rev (r_nodes p1))) as [r1|] eqn:Q1; [|discriminate].
  destruct (range_loop H ci (subtree (leaf_at (r_leaves p2)) m 0) (rev (r_nodes p2))) as [r2|] eqn:Q2; [|discriminate].
  cbn [obind] in *. injection V1 as V1. injection V2 as V2. apply bytes_eqb_eq in V1, V2. subst r1 r2.
  assert (LR : length (rev (r_nodes p1)) = length (rev (r_nodes p2))) by (now rewrite !rev_length).
  assert (LS : length (subtree (leaf_at (r_leaves p1)) m 0) = length (subtree (leaf_at (r_leaves p2)) m 0)) by (now rewrite !subtree_len).
  destruct (range_loop_bind _ _ _ _ _ r LR LS Q1 Q2) as [(Ec & En)|C].
  - destruct (subtree_bind _ _ _ _ Ec) as [A|C].
    + left. split.
      * apply nth_ext with (d := []) (d' := []); [congruence|]. intros i Hi. apply A. lia.
      * rewrite <- (rev_involutive (r_nodes p1)), En. apply rev_involutive.
    + right. eapply collision_app; [exact C| |]; apply incl_appl, incl_refl.
  - right. eapply collision_app; [exact C| |]; apply incl_appr, incl_refl.
Qed.

End Proofs.
