From Coq Require Import List ZArith Lia Bool Arith.
From Verif Require Import Base.Array Base.Machine Spec.Serdes Spec.Witness Model.Serdes Model.Witness Proofs.Serdes Proofs.Shapes2.
Import ListNotations.
Local Open Scope list_scope.

(** ** Rows of equal length *)
Lemma skipn_concat {F} m (rows : list (list F)) k : Forall (fun r => length r = m) rows ->
  skipn (k * m) (concat rows) = concat (skipn k rows).
Proof.
  intros H. revert k. induction H as [|r rows Hr H IH]; intros k.
  - cbn. now rewrite !skipn_nil.
  - destruct k as [|k]; [reflexivity|]. cbn [concat skipn]. rewrite skipn_app, Hr.
    rewrite skipn_all2 by lia. replace (S k * m - m) with (k * m) by lia. exact (IH k).
Qed.
Lemma length_concat {F} m (rows : list (list F)) : Forall (fun r => length r = m) rows -> length (concat rows) = length rows * m.
Proof. intros H. induction H as [|r rows Hr H IH]; [reflexivity|]. cbn [concat length]. rewrite app_length, IH, Hr. lia. Qed.
Lemma Forall_skipn {A} (P : A -> Prop) k l : Forall P l -> Forall P (skipn k l).
Proof. intros H. revert k. induction H; intros [|k]; cbn; auto. Qed.
Lemma nth_concat {F} m (rows : list (list F)) j i r : Forall (fun r => length r = m) rows -> nth_error rows j = Some r -> i < m ->
  nth_error (concat rows) (j * m + i) = nth_error r i.
Proof.
  intros H E Hi. rewrite <- (firstn_skipn (j * m) (concat rows)). assert (j < length rows) by (apply nth_error_Some; congruence).
  rewrite nth_error_app2; rewrite firstn_length, (length_concat m rows H), Nat.min_l by nia; [|lia].
  rewrite (skipn_concat m rows j H). replace (j * m + i - j * m) with i by lia.
  rewrite <- (firstn_skipn j rows), nth_error_app2 in E by (rewrite firstn_length; lia).
  rewrite firstn_length, Nat.min_l, Nat.sub_diag in E by lia. destruct (skipn j rows) as [|r' q] eqn:D; [discriminate|].
  injection E as ->. cbn [concat]. apply nth_error_app1.
  pose proof (Forall_skipn _ j rows H) as G. rewrite D in G. inversion G. lia.
Qed.
Lemma firstn_block {F} m (rows : list (list F)) r q : Forall (fun r => length r = m) rows -> rows = r :: q ->
  firstn m (concat rows) = r.
Proof.
  intros H ->. inversion H; subst. cbn [concat]. rewrite firstn_app, Nat.sub_diag. cbn. rewrite app_nil_r. apply firstn_all.
Qed.
Lemma skipn_skipn' {A} k j (l : list A) : skipn k (skipn j l) = skipn (k + j) l.
Proof.
  revert l. induction j as [|j IH]; intros l; [now rewrite Nat.add_0_r|]. rewrite <- plus_n_Sm. destruct l as [|x l]; [now rewrite !skipn_nil|]. apply IH.
Qed.
Lemma nth_skipn' {A} k j (l : list A) d : nth j (skipn k l) d = nth (k + j) l d.
Proof. revert l. induction k as [|k IH]; intros [|x l]; cbn; auto. now destruct j. Qed.
Lemma map_nth_seq {A} (l : list A) d : map (fun i => nth i l d) (seq 0 (length l)) = l.
Proof.
  symmetry. apply (arr_list l (length l)). apply arr_self.
Qed.
Lemma map_nth_seq_from {A} (l l' : list A) d : map (fun i => nth i (l ++ l') d) (seq (length l) (length l')) = l'.
Proof.
  rewrite <- (map_nth_seq l' d) at 2. rewrite <- (Nat.add_0_r (length l)). generalize 0 (length l').
  intros b k. revert b. induction k as [|k IH]; intros b; [reflexivity|]. cbn [seq map]. rewrite app_nth2_plus. f_equal.
  rewrite plus_n_Sm. apply IH.
Qed.
Lemma map_nth_seq_app {A} (l l' : list A) d : map (fun i => nth i (l ++ l') d) (seq 0 (length l)) = l.
Proof.
  rewrite <- (map_nth_seq l d) at 2. apply map_ext_in. intros i Hi. apply in_seq in Hi. apply app_nth1. lia.
Qed.

Lemma skipn_seq' k b n : skipn k (seq b n) = seq (b + k) (n - k).
Proof.
  revert b n. induction k as [|k IH]; intros b n; [now rewrite Nat.add_0_r, Nat.sub_0_r|]. destruct n as [|n]; [reflexivity|].
  cbn [seq skipn Nat.sub]. rewrite IH. now rewrite <- plus_n_Sm.
Qed.

Section Blocks.
Context {F : Type}.
Variable d : F.
Variables pack m : nat.
Hypothesis HP : 0 < pack.
Hypothesis HM : 0 < m.

(** Column [i] of the block starting with these rows *)
Definition column (rows : list (list F)) (i : nat) : list F :=
  map (fun j => nth i (nth (Nat.min j (length rows - 1)) rows []) d) (seq 0 pack).

Lemma pack_column_ok rows i : Forall (fun r => length r = m) rows -> rows <> [] -> i < m ->
  pack_column pack (Nat.min (length rows) pack) m (concat rows) i = Some (column rows i).
Proof.
  intros H N Hi. assert (HR : 0 < length rows) by (destruct rows; [congruence|cbn; lia]).
  assert (G : forall j, j < length rows -> aget (concat rows) (j * m + i) = Some (nth i (nth j rows []) d)).
  { intros j Hj. unfold aget. destruct (nth_error rows j) as [r|] eqn:E; [|apply nth_error_None in E; lia].
    rewrite (nth_concat m rows j i r H E Hi). apply nth_error_nth with (d := []) in E. rewrite E.
    apply nth_error_nth'. rewrite Forall_forall in H. assert (In r rows) by (rewrite <- E; apply nth_In; lia). rewrite H; auto. }
  unfold pack_column.
  rewrite (omap_total _ (fun j => nth i (nth (Nat.min j (length rows - 1)) rows []) d)).
  2:{ intros j Hj. apply in_seq in Hj. rewrite Nat.min_l by lia. apply G. lia. }
  cbn [obind]. rewrite (omap_total _ (fun j => nth i (nth (Nat.min j (length rows - 1)) rows []) d)).
  2:{ intros j Hj. apply in_seq in Hj. destruct (Nat.ltb_spec 0 (Nat.min (length rows) pack)); [|lia]. cbn [guard obind].
      rewrite (Nat.min_l (length rows) pack) in * by lia. rewrite (Nat.min_r j) by lia. apply G. lia. }
  cbn [obind]. unfold column. rewrite <- map_app. do 2 f_equal.
  rewrite <- seq_app. f_equal. lia.
Qed.
Lemma pack_block_ok rows a b : a + b = m -> Forall (fun r => length r = m) rows -> rows <> [] ->
  pack_block pack (concat rows) a b = Some (map (column rows) (seq 0 a), map (column rows) (seq a b)).
Proof.
  intros M H N. unfold pack_block. rewrite M. destruct (Nat.eqb_spec m 0); [lia|]. cbn [negb guard obind].
  rewrite (length_concat m rows H), Nat.div_mul by lia.
  rewrite (omap_total _ (column rows)) by (intros i Hi; apply in_seq in Hi; apply pack_column_ok; auto; lia). cbn [obind].
  rewrite (omap_total _ (column rows)) by (intros i Hi; apply in_seq in Hi; apply pack_column_ok; auto; lia). reflexivity.
Qed.

Definition blocks (rows : list (list F)) (nb : nat) : list (list (list F)) :=
  map (fun k => map (column (skipn (k * pack) rows)) (seq 0 m)) (seq 0 nb).
Lemma blocks_width rows nb : Forall (fun r => length r = m) (blocks rows nb).
Proof. apply Forall_forall. intros r Hr. apply in_map_iff in Hr. destruct Hr as (k & <- & _). now rewrite map_length, seq_length. Qed.
Lemma blocks_nth rows nb k : k < nb -> skipn k (blocks rows nb) = map (column (skipn (k * pack) rows)) (seq 0 m) :: skipn (S k) (blocks rows nb).
Proof.
  intros Hk. unfold blocks. rewrite !skipn_map. rewrite !skipn_seq'. replace (nb - k) with (S (nb - S k)) by lia.
  cbn [seq map]. now rewrite Nat.add_0_l.
Qed.
End Blocks.

Section Batch.
Context {F : Type}.
Variables pack a b : nat.
Hypothesis HP : 0 < pack.
Hypothesis HM : 0 < a + b.
Variable ws : list (list F * list F).
Hypothesis HS : Forall (sized a b) ws.
Let n := length ws.
Let m := a + b.
Let rows := map (fun w => fst w ++ snd w) ws.
Let nb := (n + pack - 1) / pack.
Definition batch (v : values F) : witness F := {| w_num := n; w_inputs := a; w_publics := b; w_values := v |}.

Lemma rows_width : Forall (fun r => length r = m) rows.
Proof. apply Forall_map. eapply Forall_impl; [|exact HS]. intros (x & y) (Hx & Hy). cbn in *. rewrite app_length. unfold m. lia. Qed.
Lemma rows_length : length rows = n.
Proof. apply map_length. Qed.
Lemma row_nth i : nth i rows [] = fst (nth i ws ([], [])) ++ snd (nth i ws ([], [])).
Proof. exact (map_nth (fun w => fst w ++ snd w) ws ([], []) i). Qed.
Lemma flat_rows : flat_values ws = concat rows.
Proof. apply flat_map_concat_map. Qed.
Lemma nb_spec k : k < nb <-> k * pack < n.
Proof.
  unfold nb. split; intros H.
  - pose proof (Nat.mul_div_le (n + pack - 1) pack ltac:(lia)). nia.
  - apply Nat.div_le_lower_bound; nia.
Qed.
Lemma suffix_ne k : k < nb -> skipn (k * pack) rows <> [].
Proof. intros H E. apply nb_spec in H. apply (f_equal (@length _)) in E. rewrite skipn_length, rows_length in E. cbn in E. lia. Qed.
Lemma slice_rows k : k < nb -> slice_from (concat rows) (k * pack * m) = Some (concat (skipn (k * pack) rows)).
Proof.
  intros H. apply nb_spec in H. unfold slice_from. rewrite (length_concat m rows rows_width), rows_length.
  destruct (Nat.leb_spec (k * pack * m) (n * m)); [|nia]. now rewrite (skipn_concat m rows _ rows_width).
Qed.

Variable d : F.
Definition packed : witness F := batch (Simd (concat (blocks d pack m rows nb))).
Theorem convert_ok : convert_to_simd pack (batch (Scalar (flat_values ws))) = Some packed.
Proof.
  unfold convert_to_simd, batch. cbn [w_values w_inputs w_publics w_num]. fold m. fold nb.
  rewrite (omap_total _ (fun k => map (column d pack (skipn (k * pack) rows)) (seq 0 m))).
  - reflexivity.
  - intros k Hk. apply in_seq in Hk. rewrite flat_rows, slice_rows by lia. cbn [obind].
    rewrite (pack_block_ok d pack m HP HM (skipn (k * pack) rows) m 0); [reflexivity|lia|apply Forall_skipn, rows_width|apply suffix_ne; lia].
Qed.

Definition lane (i : nat) : list F * list F := nth (Nat.min i (n - 1)) ws ([], []).
Lemma lane_sized i : 0 < n -> sized a b (lane i).
Proof. intros H. rewrite Forall_forall in HS. apply HS. apply nth_In. fold n. lia. Qed.
Lemma lane_row i k j : k < nb -> i = k * pack + j ->
  nth (Nat.min j (length (skipn (k * pack) rows) - 1)) (skipn (k * pack) rows) [] = fst (lane i) ++ snd (lane i).
Proof.
  intros Hk ->. apply nb_spec in Hk. rewrite nth_skipn', skipn_length, rows_length, row_nth. unfold lane.
  replace (Nat.min (k * pack + j) (n - 1)) with (k * pack + Nat.min j (n - k * pack - 1)) by lia. reflexivity.
Qed.
Lemma column_lane k j i : k < nb -> j < pack ->
  nth j (column d pack (skipn (k * pack) rows) i) d = nth i (fst (lane (k * pack + j)) ++ snd (lane (k * pack + j))) d.
Proof.
  intros Hk Hj. unfold column. rewrite (nth_indep _ d (nth i (nth (Nat.min 0 (length (skipn (k * pack) rows) - 1)) (skipn (k * pack) rows) []) d))
    by (now rewrite map_length, seq_length).
  rewrite (map_nth (fun j => nth i (nth (Nat.min j (length (skipn (k * pack) rows) - 1)) (skipn (k * pack) rows) []) d)), seq_nth by auto.
  rewrite Nat.add_0_l. now rewrite (lane_row (k * pack + j) k j).
Qed.
Lemma column_length r i : length (column d pack r i) = pack.
Proof. unfold column. now rewrite map_length, seq_length. Qed.

Lemma block_slices k : k < nb ->
  let v := concat (blocks d pack m rows nb) in let col := column d pack (skipn (k * pack) rows) in
  (k + 1) * m <= length v /\
  firstn a (skipn (k * m) v) = map col (seq 0 a) /\ firstn b (skipn a (skipn (k * m) v)) = map col (seq a b).
Proof.
  intros Hk v col. pose proof (blocks_width d pack m rows nb) as W.
  assert (LB : length (blocks d pack m rows nb) = nb) by (unfold blocks; now rewrite map_length, seq_length).
  split; [unfold v; rewrite (length_concat m _ W), LB; nia|].
  unfold v. rewrite (skipn_concat m _ k W), (blocks_nth d pack m HP HM rows nb k Hk). fold col. cbn [concat].
  assert (E : map col (seq 0 m) = map col (seq 0 a) ++ map col (seq a b)) by (unfold m; now rewrite seq_app, map_app).
  rewrite E, <- app_assoc. split.
  - rewrite firstn_app, map_length, seq_length, Nat.sub_diag. cbn. rewrite app_nil_r. apply firstn_all2. rewrite map_length, seq_length. lia.
  - rewrite skipn_app, map_length, seq_length, Nat.sub_diag, skipn_all2 by (rewrite map_length, seq_length; lia). cbn.
    rewrite firstn_app, map_length, seq_length, Nat.sub_diag. cbn. rewrite app_nil_r. apply firstn_all2. rewrite map_length, seq_length. lia.
Qed.
Lemma unpack_ok k : k < nb ->
  exists s, slice_from (concat (blocks d pack m rows nb)) (k * m) = Some s /\
  unpack_block pack s a b = Some (map (fun j => lane (k * pack + j)) (seq 0 pack)).
Proof.
  intros Hk. destruct (block_slices k Hk) as (L & E1 & E2). unfold slice_from.
  destruct (Nat.leb_spec (k * m) (length (concat (blocks d pack m rows nb)))); [|lia]. eexists. split; [reflexivity|].
  unfold unpack_block. apply omap_total. intros j Hj. apply in_seq in Hj. rewrite E1, E2.
  assert (Hn : 0 < n) by (apply nb_spec in Hk; lia). destruct (lane_sized (k * pack + j) Hn) as (La & Lb).
  assert (G : forall s len, omap (fun v : list F => aget v j) (map (column d pack (skipn (k * pack) rows)) (seq s len)) =
    Some (map (fun i => nth i (fst (lane (k * pack + j)) ++ snd (lane (k * pack + j))) d) (seq s len))).
  { intros s len. rewrite (omap_total _ (fun v => nth j v d)).
    - f_equal. rewrite map_map. apply map_ext. intros i. apply column_lane; lia.
    - intros v Hv. apply in_map_iff in Hv. destruct Hv as (i & <- & _). apply nth_error_nth'. rewrite column_length. lia. }
  rewrite !G. cbn [obind]. destruct (lane (k * pack + j)) as (x & y). cbn [fst snd] in *.
  rewrite <- La, <- Lb, map_nth_seq_app, map_nth_seq_from. reflexivity.
Qed.

Lemma scalar_from_packed left : forall index buf, index + left <= n ->
  (index mod pack <> 0 -> length buf = pack /\ forall j, index mod pack <= j < pack -> nth_error buf j = Some (lane (index / pack * pack + j))) ->
  scalar_from pack packed index left buf = Some (map lane (seq index left)).
Proof.
  induction left as [|left IH]; intros index buf L I; [reflexivity|]. cbn [scalar_from seq map].
  pose proof (Nat.mod_upper_bound index pack ltac:(lia)) as Hmod. pose proof (Nat.div_mod index pack ltac:(lia)) as Hdm.
  assert (Hk : index / pack < nb) by (apply nb_spec; nia).
  assert (E : exists buf', scalar_next pack packed index buf = Some (lane index, buf') /\ length buf' = pack /\
     forall j, index mod pack < j < pack -> nth_error buf' j = Some (lane (index / pack * pack + j))).
  { unfold scalar_next. cbn [packed batch w_values w_inputs w_publics]. fold m.
    assert (B : exists buf0, (if index mod pack =? 0 then let* s := slice_from (concat (blocks d pack m rows nb)) (index / pack * m) in unpack_block pack s a b else Some buf) = Some buf0 /\
       length buf0 = pack /\ forall j, index mod pack <= j < pack -> nth_error buf0 j = Some (lane (index / pack * pack + j))).
    { destruct (Nat.eqb_spec (index mod pack) 0) as [Z0|NZ].
      - destruct (unpack_ok _ Hk) as (s & -> & U). cbn [obind]. rewrite U. eexists. split; [reflexivity|].
        destruct (arr_map_seq pack (fun j => lane (index / pack * pack + j))) as (L0 & N0). split; auto. intros j Hj. apply N0. lia.
      - exists buf. split; [reflexivity|]. auto. }
    destruct B as (buf0 & -> & L0 & N0). cbn [obind]. unfold aget. rewrite N0 by lia. cbn [obind].
    destruct (aset_some buf0 (index mod pack) ([], [])) as (buf1 & -> & L1 & N1); [lia|]. cbn [obind]. exists buf1.
    replace (index / pack * pack + index mod pack) with index by nia. repeat split; [lia|].
    intros j Hj. rewrite N1. destruct (Nat.eqb_spec j (index mod pack)); [lia|]. apply N0. lia. }
  destruct E as (buf' & -> & L' & N'). cbn [obind]. rewrite Nat.add_1_r. rewrite (IH (S index) buf'); [reflexivity|lia|].
  intros NZ. split; auto. intros j Hj.
  assert (E1 : S index / pack = index / pack /\ S index mod pack = S (index mod pack)).
  { destruct (Nat.eq_dec (S (index mod pack)) pack) as [E1|E1].
    - exfalso. apply NZ. replace (S index) with ((index / pack + 1) * pack) by nia. apply Nat.mod_mul. lia.
    - split; symmetry; [apply (Nat.div_unique _ _ _ (S (index mod pack)))|apply (Nat.mod_unique _ _ (index / pack))]; nia. }
  destruct E1 as (-> & E1). rewrite E1 in Hj. apply N'. lia.
Qed.
Lemma map_lane : map lane (seq 0 n) = ws.
Proof.
  rewrite <- (map_nth_seq ws ([], [])) at 1. fold n. apply map_ext_in. intros i Hi. apply in_seq in Hi. unfold lane. now rewrite Nat.min_l by lia.
Qed.
Theorem scalar_packed : iter_scalar pack packed = Some ws.
Proof.
  unfold iter_scalar. rewrite scalar_from_packed; cbn [packed batch w_num]; [now rewrite map_lane|lia|].
  intros H. rewrite Nat.mod_0_l in H; lia.
Qed.
Theorem scalar_scalar : iter_scalar pack (batch (Scalar (flat_values ws))) = Some ws.
Proof.
  unfold iter_scalar. cbn [batch w_num]. rewrite flat_rows. transitivity (Some (map lane (seq 0 n))); [|now rewrite map_lane]. set (buf := @nil (list F * list F)). clearbody buf.
  assert (G : forall left index, index + left <= n -> scalar_from pack (batch (Scalar (concat rows))) index left buf = Some (map lane (seq index left))).
  { induction left as [|left IH]; intros index L; [reflexivity|]. cbn [scalar_from seq map]. unfold scalar_next. cbn [batch w_values w_inputs w_publics].
    fold m. unfold slice. rewrite (length_concat m rows rows_width), rows_length.
    destruct (Nat.leb_spec (index * m) (index * m + a)); [|lia]. destruct (Nat.leb_spec (index * m + a) (n * m)); [|unfold m in *; nia].
    cbn [andb obind]. destruct (Nat.leb_spec (index * m + a) (index * m + a + b)); [|lia].
    destruct (Nat.leb_spec (index * m + a + b) (n * m)); [|unfold m in *; nia]. cbn [andb obind].
    replace (index * m + a - index * m) with a by lia. replace (index * m + a + b - (index * m + a)) with b by lia.
    rewrite (Nat.add_comm (index * m) a), <- skipn_skipn', (skipn_concat m rows index rows_width).
    rewrite Nat.add_1_r, IH by lia. cbn [obind]. do 2 f_equal.
    assert (Hi : index < length rows) by (rewrite rows_length; lia).
    destruct (skipn index rows) as [|r q] eqn:E; [apply (f_equal (@length _)) in E; rewrite skipn_length in E; cbn in E; lia|].
    assert (Er : r = fst (lane index) ++ snd (lane index)).
    { transitivity (nth 0 (skipn index rows) []); [now rewrite E|]. rewrite nth_skipn', Nat.add_0_r, row_nth. unfold lane. now rewrite Nat.min_l by lia. }
    destruct (lane_sized index) as (La & Lb); [lia|]. cbn [concat]. rewrite Er, <- app_assoc. destruct (lane index) as (x & y). cbn [fst snd] in *. f_equal.
    - rewrite <- La at 1. rewrite firstn_app, Nat.sub_diag, firstn_all. cbn. apply app_nil_r.
    - rewrite <- La at 1. rewrite skipn_app, Nat.sub_diag, skipn_all. cbn. rewrite <- Lb. rewrite firstn_app, Nat.sub_diag, firstn_all. cbn. apply app_nil_r. }
  apply G. lia.
Qed.

Lemma filter_seq_lt t k : t <= k -> filter (fun i => i <? t) (seq 0 k) = seq 0 t.
Proof.
  intros H. replace k with (t + (k - t)) by lia. rewrite seq_app, filter_app.
  assert (E1 : forall l, (forall i, In i l -> i < t) -> filter (fun i => i <? t) l = l).
  { induction l as [|x l IH]; intros Hl; [reflexivity|]. cbn [filter]. destruct (Nat.ltb_spec x t); [f_equal; apply IH; firstorder|]. specialize (Hl x (or_introl eq_refl)). lia. }
  assert (E2 : forall l, (forall i, In i l -> t <= i) -> filter (fun i => i <? t) l = []).
  { induction l as [|x l IH]; intros Hl; [reflexivity|]. cbn [filter]. destruct (Nat.ltb_spec x t); [specialize (Hl x (or_introl eq_refl)); lia|]. apply IH. firstorder. }
  rewrite E1, E2; [apply app_nil_r| |]; intros i Hi; apply in_seq in Hi; lia.
Qed.
Lemma simd_indices : filter (fun index => index * pack <? n) (seq 0 n) = seq 0 nb.
Proof.
  rewrite <- (filter_seq_lt nb n).
  - apply filter_ext. intros i. pose proof (nb_spec i) as H. destruct (Nat.ltb_spec (i * pack) n), (Nat.ltb_spec i nb); auto; lia.
  - unfold nb. apply Nat.lt_succ_r. apply Nat.div_lt_upper_bound; nia.
Qed.
Definition simd_blocks := map (fun k => (map (column d pack (skipn (k * pack) rows)) (seq 0 a), map (column d pack (skipn (k * pack) rows)) (seq a b))) (seq 0 nb).
Theorem simd_scalar : iter_simd pack (batch (Scalar (flat_values ws))) = Some simd_blocks.
Proof.
  unfold iter_simd. cbn [batch w_num]. rewrite simd_indices. apply omap_total. intros k Hk. apply in_seq in Hk.
  unfold simd_next. cbn [batch w_values w_inputs w_publics]. fold m. rewrite flat_rows, slice_rows by lia. cbn [obind].
  apply pack_block_ok with (m := m); auto. 1: apply Forall_skipn, rows_width. apply suffix_ne. lia.
Qed.
Theorem simd_packed : iter_simd pack packed = Some simd_blocks.
Proof.
  unfold iter_simd. cbn [packed batch w_num]. rewrite simd_indices. apply omap_total. intros k Hk. apply in_seq in Hk.
  unfold simd_next. cbn [packed batch w_values w_inputs w_publics]. fold m. destruct (block_slices k) as (L & E1 & E2); [lia|]. unfold slice.
  destruct (Nat.leb_spec (k * m) (k * m + a)); [|lia].
  destruct (Nat.leb_spec (k * m + a) (length (concat (blocks d pack m rows nb)))); [|unfold m in *; nia]. cbn [andb obind].
  destruct (Nat.leb_spec (k * m + a) (k * m + a + b)); [|lia].
  destruct (Nat.leb_spec (k * m + a + b) (length (concat (blocks d pack m rows nb)))); [|unfold m in *; nia]. cbn [andb obind].
  replace (k * m + a - k * m) with a by lia. replace (k * m + a + b - (k * m + a)) with b by lia.
  rewrite (Nat.add_comm (k * m) a), <- skipn_skipn', E1, E2. reflexivity.
Qed.
Theorem simd_blocks_ok k xs ys : nth_error simd_blocks k = Some (xs, ys) ->
  k < nb /\ length xs = a /\ length ys = b /\
  interleaved pack (xs ++ ys) (fun j => fst (lane (k * pack + j)) ++ snd (lane (k * pack + j))).
Proof.
  intros E. assert (Hk : k < nb).
  { apply Nat.lt_le_trans with (length simd_blocks); [apply nth_error_Some; congruence|]. unfold simd_blocks. now rewrite map_length, seq_length. }
  split; auto. unfold simd_blocks in E. rewrite nth_error_map, (nth_error_nth' _ 0), seq_nth in E by (rewrite ?seq_length; auto).
  cbn [option_map Nat.add] in E. injection E as <- <-. rewrite !map_length, !seq_length. repeat split.
  - rewrite <- map_app, <- seq_app. apply Forall_map, Forall_forall. intros i _. apply column_length.
  - assert (Hn : 0 < n) by (apply nb_spec in Hk; lia). destruct (lane_sized (k * pack + j) Hn) as (La & Lb).
    rewrite !app_length, !map_length, !seq_length. lia.
  - assert (Hn : 0 < n) by (apply nb_spec in Hk; lia). destruct (lane_sized (k * pack + j) Hn) as (La & Lb).
    intros i v E. rewrite <- map_app, <- seq_app in E.
    assert (Hi : i < a + b) by (apply Nat.lt_le_trans with (length (map (column d pack (skipn (k * pack) rows)) (seq 0 (a + b)))); [apply nth_error_Some; congruence|now rewrite map_length, seq_length]).
    rewrite nth_error_map, (nth_error_nth' _ 0), seq_nth in E by (rewrite ?seq_length; auto). cbn [option_map Nat.add] in E. injection E as <-.
    rewrite (nth_error_nth' _ d) by (rewrite column_length; auto). rewrite column_lane by auto. symmetry. apply nth_error_nth'. rewrite app_length. lia.
Qed.
Lemma simd_blocks_length : length simd_blocks = nb.
Proof. unfold simd_blocks. now rewrite map_length, seq_length. Qed.
End Batch.

(** ** Packing for a vector type *)
Section ToSimd.
Context {F : Type}.
Variables pack tpack a b : nat.
Hypothesis HP : 0 < pack.
Hypothesis HT : 0 < tpack.
Hypothesis HM : 0 < a + b.
Variable ws : list (list F * list F).
Hypothesis HS : Forall (sized a b) ws.
Hypothesis HN : ws <> [].
Variable d : F.
Let rows := map (fun w : list F * list F => fst w ++ snd w) ws.
Definition first_block := (map (column d tpack rows) (seq 0 a), map (column d tpack rows) (seq a b)).
Lemma rows_ne : rows <> [].
Proof. unfold rows. destruct ws; [congruence|discriminate]. Qed.
Lemma to_simd_scalar same : to_simd pack same tpack (batch a b ws (Scalar (flat_values ws))) = Some first_block.
Proof.
  unfold to_simd. cbn [batch w_values w_inputs w_publics]. rewrite flat_rows. fold rows.
  apply (pack_block_ok d tpack (a + b)); auto. 1: exact (rows_width 1 a b Nat.lt_0_1 HM ws HS). exact rows_ne.
Qed.
Lemma column_firstn i : column d tpack (firstn tpack rows) i = column d tpack rows i.
Proof.
  pose proof rows_ne as N. assert (HL : 0 < length rows) by (destruct rows; [congruence|cbn; lia]).
  unfold column. apply map_ext_in. intros j Hj. apply in_seq in Hj. rewrite firstn_length. f_equal.
  assert (E : forall k (l : list (list F)) t, k < t -> nth k (firstn t l) [] = nth k l []).
  { induction k as [|k IH]; intros [|x l] [|t] Ht; cbn; auto; try lia. apply IH. lia. }
  rewrite E by lia. f_equal. lia.
Qed.
Lemma to_simd_packed same : (same = true -> tpack = pack) -> to_simd pack same tpack (packed pack a b ws d) = Some first_block.
Proof.
  intros S. unfold to_simd. cbn [packed batch w_values w_inputs w_publics].
  assert (Hnb : 0 < (length ws + pack - 1) / pack) by (apply (nb_spec _ a b); auto; destruct ws; [congruence|cbn; lia]).
  destruct same.
  - specialize (S eq_refl). unfold first_block. rewrite S. destruct (block_slices pack a b HP HM ws d 0 Hnb) as (L & E1 & E2). cbn [Nat.mul skipn] in *. fold rows in L, E1, E2.
    unfold slice. destruct (Nat.leb_spec 0 a); [|lia]. fold rows.
    destruct (Nat.leb_spec a (length (concat (blocks d pack (a + b) rows ((length ws + pack - 1) / pack))))); [|lia]. cbn [andb obind].
    destruct (Nat.leb_spec a (a + b)); [|lia]. destruct (Nat.leb_spec (a + b) (length (concat (blocks d pack (a + b) rows ((length ws + pack - 1) / pack))))); [|lia].
    cbn [andb obind]. rewrite Nat.sub_0_r. replace (a + b - a) with b by lia. cbn [skipn]. rewrite E1, E2. reflexivity.
  - pose proof (scalar_packed pack a b HP HM ws HS d) as SP. unfold packed, batch in *. rewrite SP. cbn [obind].
    change (flat_map (fun r => fst r ++ snd r) (firstn tpack ws)) with (flat_values (firstn tpack ws)). rewrite flat_rows, <- firstn_map. fold rows.
    rewrite (pack_block_ok d tpack (a + b) HT HM (firstn tpack rows) a b eq_refl).
    + unfold first_block. do 2 f_equal; apply map_ext; intros i; apply column_firstn.
    + pose proof (rows_width 1 a b Nat.lt_0_1 HM ws HS) as W. fold rows in W. rewrite Forall_forall in *. intros r Hr. apply W. rewrite <- (firstn_skipn tpack rows). apply in_app_iff. now left.
    + pose proof rows_ne. destruct rows; [congruence|]. destruct tpack; [lia|discriminate].
Qed.
Lemma first_block_ok : length (fst first_block) = a /\ length (snd first_block) = b /\
  interleaved tpack (fst first_block ++ snd first_block) (fun j => fst (lane ws j) ++ snd (lane ws j)).
Proof.
  assert (Hnb : 0 < (length ws + tpack - 1) / tpack) by (apply (nb_spec _ a b); auto; destruct ws; [congruence|cbn; lia]).
  pose proof (simd_blocks_ok tpack a b HT HM ws HS d 0 (fst first_block) (snd first_block)) as H.
  destruct H as (_ & H1 & H2 & H3); [|auto].
  unfold simd_blocks. destruct ((length ws + tpack - 1) / tpack) as [|nb]; [lia|]. cbn [seq map nth_error Nat.mul skipn]. reflexivity.
Qed.
End ToSimd.

(** ** Files *)
Section File.
Variable c : field_format.
Hypothesis C : format_ok c.
Hypothesis CM : (ff_modulus c < 256 ^ Z.of_nat 32)%Z.
Variables pack a b : nat.
Hypothesis HP : 0 < pack.
Hypothesis HM : 0 < a + b.
Variable ws : list (list Z * list Z).
Hypothesis HS : Forall (sized a b) ws.
Hypothesis HF : Forall (fun w => Forall (field_ok c) (fst w) /\ Forall (field_ok c) (snd w)) ws.
Hypothesis HN : (Z.of_nat (length ws * (a + b)) < U64)%Z.
Let n := length ws.

Definition header : list Z := ser_usize n ++ ser_usize a ++ ser_usize b ++ ser_u256 (ff_modulus c).
Definition file : list Z := header ++ flat_map (ser_field c) (flat_values ws).
Definition loaded : witness Z := if use_simd pack n then packed pack a b ws 0%Z else batch a b ws (Scalar (flat_values ws)).

Lemma ser_scalar : ser_witness c pack (batch a b ws (Scalar (flat_values ws))) = Some file.
Proof. reflexivity. Qed.
Lemma ser_packed : ser_witness c pack (packed pack a b ws 0%Z) = Some file.
Proof.
  unfold ser_witness. pose proof (scalar_packed pack a b HP HM ws HS 0%Z) as SP. unfold packed, batch in *. cbn [w_values w_num w_inputs w_publics].
  rewrite SP. cbn [obind]. unfold file, header. fold n. do 2 f_equal. unfold flat_values. clear.
  induction ws as [|w l IH]; [reflexivity|]. cbn [flat_map]. now rewrite !flat_map_app, IH.
Qed.
Lemma ser_loaded : ser_witness c pack loaded = Some file.
Proof. unfold loaded. destruct (use_simd pack n); [apply ser_packed|apply ser_scalar]. Qed.
Lemma values_length : length (flat_values ws) = n * (a + b).
Proof. rewrite flat_rows, (length_concat (a + b) _ (rows_width 1 a b Nat.lt_0_1 HM ws HS)), map_length. reflexivity. Qed.
Lemma values_ok : Forall (field_ok c) (flat_values ws).
Proof.
  unfold flat_values. apply Forall_forall. intros x Hx. apply in_flat_map in Hx. destruct Hx as (w & Hw & Hx).
  rewrite Forall_forall in HF. destruct (HF w Hw) as (H1 & H2). rewrite Forall_forall in H1, H2. apply in_app_iff in Hx. destruct Hx; auto.
Qed.
Lemma loaded_ok : (if use_simd pack n then let* w := convert_to_simd pack (batch a b ws (Scalar (flat_values ws))) in Some (w, @nil Z) else Some (batch a b ws (Scalar (flat_values ws)), [])) = Some (loaded, []).
Proof. unfold loaded. destruct (use_simd pack n); auto. rewrite (convert_ok pack a b HP HM ws HS 0%Z). reflexivity. Qed.

Hypothesis HU : usize_ok n /\ usize_ok a /\ usize_ok b.
Theorem de_file rest : de_witness c pack (file ++ rest) = Some (loaded, rest).
Proof.
  destruct HU as (Un & Ua & Ub). unfold de_witness, file, header. rewrite <- !app_assoc.
  rewrite rt_usize by auto. cbn [obind]. rewrite rt_usize by auto. cbn [obind]. rewrite rt_usize by auto. cbn [obind].
  unfold ser_u256, de_u256. rewrite (rt_num 32) by (unfold format_ok in C; lia). cbn [obind]. rewrite Z.eqb_refl. cbn [negb].
  destruct (Z.ltb_spec (Z.of_nat (n * (a + b))) U64) as [H|H]; [|unfold n in H; lia]. cbn [guard obind].
  rewrite <- values_length, (rt_times (field_ok c) _ _ _ _ (rt_field c C) values_ok). cbn [obind]. unfold loaded.
  destruct (use_simd pack n); [|reflexivity].
  pose proof (convert_ok pack a b HP HM ws HS 0%Z) as K. unfold batch in K. fold n in K. rewrite K. reflexivity.
Qed.
End File.
Lemma st_const {A B} (o : option A) (f : A -> decoder B) : (forall a, streams (f a)) -> streams (fun s => let* a := o in f a s).
Proof. destruct o; cbn [obind]; auto. intros _. apply st_fail. Qed.
Lemma st_witness c pack : streams (de_witness c pack).
Proof.
  unfold de_witness. apply (st_bind de_usize); [apply st_usize|intros n]. apply (st_bind de_usize); [apply st_usize|intros a].
  apply (st_bind de_usize); [apply st_usize|intros b]. apply (st_bind de_u256); [apply (st_num 32)|intros modulus].
  apply (st_if _ (fun _ => None)); [apply st_fail|]. apply st_guard.
  apply (st_bind (de_times (n * (a + b)) (de_field c))); [apply st_times, st_field|intros v]. cbv zeta.
  destruct (use_simd pack n); [|apply st_ret]. apply (st_const _ (fun w s => Some (w, s))). intros w. apply st_ret.
Qed.
Theorem file_truncation c pack a b ws p q : format_ok c -> (ff_modulus c < 256 ^ Z.of_nat 32)%Z -> 0 < pack -> 0 < a + b ->
  Forall (sized a b) ws -> Forall (fun w => Forall (field_ok c) (fst w) /\ Forall (field_ok c) (snd w)) ws ->
  (Z.of_nat (length ws * (a + b)) < U64)%Z -> usize_ok (length ws) /\ usize_ok a /\ usize_ok b ->
  file c a b ws = p ++ q -> q <> [] -> de_witness c pack p = None.
Proof.
  intros C CM HP HM HS HF HN HU E Q.
  apply (truncation (fun u : witness Z => u = loaded pack a b ws) (fun _ => file c a b ws) (de_witness c pack)) with (v := loaded pack a b ws) (q := q); auto.
  - intros v rest ->. now apply de_file.
  - apply st_witness.
Qed.

(** ** As stated in Properties/Witness.v *)
Theorem packing_ok {F} (zero : F) pack a b (ws : list (list F * list F)) : 0 < pack -> 0 < a + b -> Forall (sized a b) ws ->
  iter_scalar pack (batch a b ws (Scalar (flat_values ws))) = Some ws /\
  exists w', convert_to_simd pack (batch a b ws (Scalar (flat_values ws))) = Some w' /\
    w_num w' = length ws /\ w_inputs w' = a /\ w_publics w' = b /\ iter_scalar pack w' = Some ws.
Proof.
  intros HP HM HS. split; [now apply scalar_scalar|]. exists (packed pack a b ws zero). split; [now apply convert_ok|].
  repeat split. now apply scalar_packed.
Qed.
Theorem blocks_ok {F} (zero : F) pack a b (ws : list (list F * list F)) : 0 < pack -> 0 < a + b -> Forall (sized a b) ws ->
  exists blocks w', iter_simd pack (batch a b ws (Scalar (flat_values ws))) = Some blocks /\
    convert_to_simd pack (batch a b ws (Scalar (flat_values ws))) = Some w' /\ iter_simd pack w' = Some blocks /\
    length ws <= length blocks * pack < length ws + pack /\
    forall k xs ys, nth_error blocks k = Some (xs, ys) -> length xs = a /\ length ys = b /\
      interleaved pack (xs ++ ys) (fun j => let w := nth (Nat.min (k * pack + j) (length ws - 1)) ws ([], []) in fst w ++ snd w).
Proof.
  intros HP HM HS. exists (simd_blocks pack a b ws zero), (packed pack a b ws zero).
  split; [now apply simd_scalar|]. split; [now apply convert_ok|]. split; [now apply simd_packed|]. split.
  - rewrite simd_blocks_length. pose proof (Nat.div_mod (length ws + pack - 1) pack ltac:(lia)).
    pose proof (Nat.mod_upper_bound (length ws + pack - 1) pack ltac:(lia)). nia.
  - intros k xs ys E. destruct (simd_blocks_ok pack a b HP HM ws HS zero k xs ys E) as (_ & H1 & H2 & H3). auto.
Qed.
Theorem to_simd_ok {F} (zero : F) pack tpack a b (ws : list (list F * list F)) same : 0 < pack -> 0 < tpack -> 0 < a + b -> Forall (sized a b) ws -> ws <> [] ->
  (same = true -> tpack = pack) ->
  exists xs ys w', convert_to_simd pack (batch a b ws (Scalar (flat_values ws))) = Some w' /\
    to_simd pack same tpack (batch a b ws (Scalar (flat_values ws))) = Some (xs, ys) /\ to_simd pack same tpack w' = Some (xs, ys) /\
    length xs = a /\ length ys = b /\
    interleaved tpack (xs ++ ys) (fun j => let w := nth (Nat.min j (length ws - 1)) ws ([], []) in fst w ++ snd w).
Proof.
  intros HP HT HM HS HN HE. pose proof (first_block_ok pack tpack a b HP HT HM ws HS HN zero) as (H1 & H2 & H3).
  exists (fst (first_block tpack a b ws zero)), (snd (first_block tpack a b ws zero)), (packed pack a b ws zero).
  split; [now apply convert_ok|]. split; [rewrite <- surjective_pairing; now apply to_simd_scalar|].
  split; [rewrite <- surjective_pairing; now apply to_simd_packed|]. auto.
Qed.
Theorem empty_refuted {F} pack (ws : list (list F * list F)) : 0 < pack -> ws <> [] ->
  convert_to_simd pack (batch 0 0 ws (Scalar (flat_values ws))) = None.
Proof.
  intros HP HN. unfold convert_to_simd. cbn [batch w_values w_inputs w_publics w_num Nat.add].
  assert (E : exists m, (length ws + pack - 1) / pack = S m).
  { assert (0 < (length ws + pack - 1) / pack) by (apply Nat.div_str_pos; destruct ws; [congruence|cbn; lia]).
    destruct ((length ws + pack - 1) / pack) as [|m]; [lia|now exists m]. }
  destruct E as (m & ->). reflexivity.
Qed.
Theorem witness_file_ok c pack a b ws : format_ok c -> (ff_modulus c < 256 ^ Z.of_nat 32)%Z -> 0 < pack -> 0 < a + b ->
  Forall (sized a b) ws -> Forall (fun w => Forall (field_ok c) (fst w) /\ Forall (field_ok c) (snd w)) ws ->
  (Z.of_nat (length ws * (a + b)) < U64)%Z -> usize_ok (length ws) /\ usize_ok a /\ usize_ok b ->
  exists bytes w', ser_witness c pack (batch a b ws (Scalar (flat_values ws))) = Some bytes /\
    (if use_simd pack (length ws) then convert_to_simd pack (batch a b ws (Scalar (flat_values ws))) else Some (batch a b ws (Scalar (flat_values ws)))) = Some w' /\
    ser_witness c pack w' = Some bytes /\
    (forall rest, de_witness c pack (bytes ++ rest) = Some (w', rest)) /\
    (forall p q, bytes = p ++ q -> q <> [] -> de_witness c pack p = None).
Proof.
  intros C CM HP HM HS HF HN HU. exists (file c a b ws), (loaded pack a b ws). split; [now apply ser_scalar|]. split.
  { unfold loaded. destruct (use_simd pack (length ws)); [|reflexivity]. now apply convert_ok. }
  split; [now apply ser_loaded|]. split; [intros rest; now apply de_file|]. intros p q E Q. now apply file_truncation with (a := a) (b := b) (ws := ws) (q := q).
Qed.
