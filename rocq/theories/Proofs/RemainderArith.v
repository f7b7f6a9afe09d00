(** Padding, rescaling and range-check shreds of the Remainder backend. *)
From Coq Require Import ZArith List Bool Lia String.
From Verif Require Import Base.Array Base.Machine Spec.Remainder Model.Remainder.
Import ListNotations.
Local Open Scope Z_scope.

(** ** Padding *)

Lemma bit_length_pos x : 0 < x -> bit_length x = Z.log2 x + 1.
Proof. intros H. unfold bit_length. destruct (Z.eqb_spec x 0); lia. Qed.

Lemma log2_up_pred n : 1 < n -> Z.log2 (n - 1) + 1 = Z.log2_up n.
Proof.
  intros H. unfold Z.log2_up. destruct (Z.compare_spec 1 n); try lia.
  rewrite <- Z.sub_1_r. lia.
Qed.

Lemma next_power_of_two_spec n : 0 <= n <= 2 ^ 63 -> next_power_of_two n = Some (2 ^ Z.log2_up n).
Proof.
  intros H. unfold next_power_of_two. destruct (Z.leb_spec n 1).
  - rewrite Z.log2_up_eqn0 by lia. reflexivity.
  - unfold leading_zeros. rewrite bit_length_pos by lia. rewrite log2_up_pred by lia.
    assert (Hl : 0 < Z.log2_up n <= 63).
    { split; [apply Z.log2_up_pos; lia|]. apply Z.log2_up_le_pow2; lia. }
    assert (E : Z.shiftr (U64 - 1) (64 - Z.log2_up n) = 2 ^ Z.log2_up n - 1).
    { rewrite Z.shiftr_div_pow2 by lia. unfold U64.
      replace (2 ^ 64) with (2 ^ Z.log2_up n * 2 ^ (64 - Z.log2_up n)) by (rewrite <- Z.pow_add_r by lia; f_equal; lia).
      assert (0 < 2 ^ (64 - Z.log2_up n)) by (apply Z.pow_pos_nonneg; lia).
      assert (0 < 2 ^ Z.log2_up n) by (apply Z.pow_pos_nonneg; lia).
      symmetry. apply Z.div_unique with (r := 2 ^ (64 - Z.log2_up n) - 1); nia. }
    rewrite E, Z.sub_add. apply unsigned_some. split; [apply Z.pow_nonneg; lia|].
    apply Z.pow_lt_mono_r; lia.
Qed.

Lemma next_power_of_two_over n : 2 ^ 63 < n < 2 ^ 64 -> next_power_of_two n = None.
Proof.
  intros H. unfold next_power_of_two. destruct (Z.leb_spec n 1); [lia|].
  assert (E : Z.log2 (n - 1) = 63) by (apply Z.log2_unique; lia).
  unfold leading_zeros. rewrite bit_length_pos, E by lia. reflexivity.
Qed.

Lemma log2_ceil_spec n : 0 <= n -> log2_ceil n = Z.log2_up n.
Proof.
  intros H. unfold log2_ceil. destruct (Z.leb_spec n 1); [now rewrite Z.log2_up_eqn0 by lia|].
  unfold leading_zeros. rewrite bit_length_pos by lia. rewrite <- log2_up_pred by lia. lia.
Qed.

Lemma num_vars_spec n : 0 <= n <= 2 ^ 63 -> num_vars_for n = Some (Z.log2_up n).
Proof.
  intros H. unfold num_vars_for. rewrite next_power_of_two_spec by lia. cbn [obind].
  rewrite log2_ceil_spec by (apply Z.pow_nonneg; lia). now rewrite Z.log2_up_pow2 by apply Z.log2_up_nonneg.
Qed.

Lemma log2_up_nat n : Z.log2_up (Z.of_nat n) = Z.of_nat (nvars n).
Proof.
  unfold nvars. destruct (Nat.le_gt_cases n 1) as [H|H].
  - rewrite Nat.log2_up_eqn0 by lia. now rewrite Z.log2_up_eqn0 by lia.
  - apply Z.log2_up_unique; [pose proof (Nat.log2_up_pos n H); lia|].
    destruct (Nat.log2_up_spec n H) as (A & B).
    change 2 with (Z.of_nat 2). rewrite <- Nat2Z.inj_pred by (apply Nat.log2_up_pos; auto).
    rewrite <- !Nat2Z.inj_pow. lia.
Qed.

(** The circuit builder's sizes are those of padding.rs. *)
Lemma pow2_for_spec n : Z.of_nat n <= 2 ^ 63 -> next_power_of_two (Z.of_nat n) = Some (Z.of_nat (pow2_for n)).
Proof.
  intros H. rewrite next_power_of_two_spec by lia. rewrite log2_up_nat. unfold pow2_for.
  f_equal. change 2 with (Z.of_nat 2). now rewrite <- Nat2Z.inj_pow.
Qed.
Lemma nvars_spec n : Z.of_nat n <= 2 ^ 63 -> num_vars_for (Z.of_nat n) = Some (Z.of_nat (nvars n)).
Proof. intros H. rewrite num_vars_spec by lia. now rewrite log2_up_nat. Qed.

Lemma le_pow2_for n : (n <= pow2_for n)%nat.
Proof.
  unfold pow2_for, nvars. destruct (Nat.le_gt_cases n 1) as [H|H].
  - rewrite Nat.log2_up_eqn0 by lia. cbn. lia.
  - apply Nat.log2_up_spec in H. lia.
Qed.

Lemma nvars_least n j : (n <= 2 ^ j)%nat -> (nvars n <= j)%nat.
Proof. intros H. unfold nvars. rewrite <- (Nat.log2_up_pow2 j) by lia. now apply Nat.log2_up_le_mono. Qed.

Lemma pad_length l n : List.length (pad_to_size l n) = n.
Proof. unfold pad_to_size. rewrite app_length, firstn_length, repeat_length. lia. Qed.

Lemma pad_firstn l n : (List.length l <= n)%nat -> firstn (List.length l) (pad_to_size l n) = l.
Proof.
  intros H. unfold pad_to_size. rewrite (firstn_all2 (n := n) l) by auto.
  rewrite firstn_app, Nat.sub_diag, firstn_all. cbn. now rewrite app_nil_r.
Qed.
Lemma pad_skipn l n : (List.length l <= n)%nat -> skipn (List.length l) (pad_to_size l n) = repeat 0 (n - List.length l).
Proof.
  intros H. unfold pad_to_size. rewrite (firstn_all2 (n := n) l) by auto.
  rewrite skipn_app, Nat.sub_diag, skipn_all. reflexivity.
Qed.

Lemma at_pad l n i : (List.length l <= n)%nat -> at_ (pad_to_size l n) i = at_ l i.
Proof.
  intros H. unfold at_, pad_to_size. rewrite (firstn_all2 (n := n) l) by auto.
  destruct (Nat.lt_ge_cases i (List.length l)) as [Hi|Hi].
  - now rewrite app_nth1.
  - rewrite app_nth2 by auto. rewrite nth_repeat, nth_overflow by auto. reflexivity.
Qed.

Lemma pad_total l : Z.of_nat (List.length l) <= 2 ^ 63 ->
  exists k padded, pad_to_power_of_two l = Some padded /\ num_vars_for (Z.of_nat (List.length l)) = Some (Z.of_nat k) /\
    List.length padded = (2 ^ k)%nat /\ (List.length l <= 2 ^ k)%nat /\
    (forall j, (List.length l <= 2 ^ j)%nat -> (k <= j)%nat) /\
    firstn (List.length l) padded = l /\ skipn (List.length l) padded = repeat 0 (2 ^ k - List.length l).
Proof.
  intros H. exists (nvars (List.length l)), (pad_to_size l (pow2_for (List.length l))).
  unfold pad_to_power_of_two. rewrite pow2_for_spec by auto. cbn [obind]. rewrite Nat2Z.id.
  split; [reflexivity|]. split; [now apply nvars_spec|]. split; [apply pad_length|].
  split; [apply le_pow2_for|]. split; [apply nvars_least|].
  split; [apply pad_firstn|apply pad_skipn]; apply le_pow2_for.
Qed.

Lemma pad_overflow l : 2 ^ 63 < Z.of_nat (List.length l) < 2 ^ 64 -> pad_to_power_of_two l = None.
Proof. intros H. unfold pad_to_power_of_two. now rewrite next_power_of_two_over. Qed.

(** ** Rescaling *)

Lemma as_i64_id x : i64 x -> as_i64 x = x.
Proof. unfold i64, as_i64. intros H. rewrite Z.mod_small by lia. lia. Qed.

Lemma quot_nonneg_div a b : 0 <= a -> 0 < b -> Z.quot a b = a / b.
Proof. intros. apply Z.quot_div_nonneg; lia. Qed.

Lemma rescale_exact value alpha offset : alpha <> 0 -> i64 alpha -> 0 <= alpha * offset + value ->
  exists q r, value = q * alpha + r /\ 0 <= r < Z.abs alpha /\
    (i64 q -> compute_rescale value alpha offset = Some (q, r)).
Proof.
  intros Ha Ia Hs.
  exists (Z.quot (alpha * offset + value) alpha - offset),
         (alpha * offset + value - alpha * Z.quot (alpha * offset + value) alpha).
  split; [ring|].
  assert (Hr : 0 <= alpha * offset + value - alpha * Z.quot (alpha * offset + value) alpha < Z.abs alpha).
  { pose proof (Z.rem_bound_abs (alpha * offset + value) alpha Ha).
    pose proof (Z.rem_nonneg (alpha * offset + value) alpha Ha Hs).
    pose proof (Z.quot_rem (alpha * offset + value) alpha Ha). lia. }
  split; [exact Hr|]. intros Hq. unfold compute_rescale.
  destruct (Z.eqb_spec alpha 0); [lia|]. cbn [negb guard obind].
  rewrite (as_i64_id _ Hq), as_i64_id; [reflexivity|]. unfold i64 in *. lia.
Qed.

(** For a positive scale the quotient always fits and is the floor. *)
Lemma rescale_floor value alpha offset : 0 < alpha -> i64 alpha -> i64 value -> 0 <= alpha * offset + value ->
  compute_rescale value alpha offset = Some (value / alpha, value mod alpha).
Proof.
  intros Ha Ia Iv Hs. destruct (rescale_exact value alpha offset) as (q & r & E & Hr & F); auto; [lia|].
  assert (Eq : q = value / alpha).
  { rewrite (Z.abs_eq alpha) in Hr by lia. apply Z.div_unique with r; lia. }
  assert (Er : r = value mod alpha) by (rewrite Z.mod_eq by lia; lia).
  subst q r. apply F. unfold i64 in *. split; [apply Z.div_le_lower_bound; nia|].
  apply Z.div_lt_upper_bound; nia.
Qed.

(** Otherwise the remainder is negative, or zero when the scale divides the
    value. *)
Lemma rescale_below value alpha offset q r : 0 < alpha -> i64 alpha -> i64 value -> alpha * offset + value < 0 ->
  compute_rescale value alpha offset = Some (q, r) ->
  - alpha < r <= 0 /\ (r = 0 <-> value mod alpha = 0).
Proof.
  intros Ha Ia Iv Hs. unfold compute_rescale. destruct (Z.eqb_spec alpha 0); [lia|]. cbn [negb guard obind].
  intros E. injection E as <- <-.
  set (s := alpha * offset + value) in *. pose proof (Z.quot_rem s alpha n) as Q.
  replace (s - alpha * Z.quot s alpha) with (Z.rem s alpha) by lia.
  assert (B : - alpha < Z.rem s alpha <= 0) 
    by (pose proof (Z.rem_bound_pos (- s) alpha ltac:(lia) Ha) as R; rewrite Z.rem_opp_l in R by auto; lia).
  rewrite as_i64_id by (unfold i64 in *; lia). split; [exact B|].
  rewrite Z.rem_divide by auto. rewrite Z.mod_divide by auto. subst s.
  split; intros (k & D); [exists (k - offset)|exists (k + offset)]; lia.
Qed.

Lemma omap_map {A B} (f : A -> option B) l r : omap f l = Some r <-> Forall2 (fun a b => f a = Some b) l r.
Proof.
  split.
  - revert r. induction l as [|a l IH]; cbn; intros r E; [injection E as <-; constructor|].
    destruct (f a) eqn:Ea; [|discriminate]. cbn in E. destruct (omap f l) eqn:El; [|discriminate]. cbn in E.
    injection E as <-. constructor; auto.
  - induction 1 as [|a b l r E _ IH]; cbn; [reflexivity|]. rewrite E. cbn. rewrite IH. reflexivity.
Qed.

Lemma rescale_array_floor values alpha offset : 0 < alpha -> i64 alpha ->
  (forall v, In v values -> i64 v /\ 0 <= alpha * offset + v) ->
  compute_rescale_array values alpha offset =
    Some (map (fun v => v / alpha) values, map (fun v => v mod alpha) values).
Proof.
  intros Ha Ia H. unfold compute_rescale_array.
  rewrite (omap_total _ (fun v => (v / alpha, v mod alpha))).
  - cbn [obind]. now rewrite !map_map.
  - intros v Hv. destruct (H v Hv). now apply rescale_floor.
Qed.

(** ** Multiplicities *)

Local Notation zlen l := (Z.of_nat (List.length l)).

Lemma aset_inv {A} (l : list A) i v l' : aset l i v = Some l' ->
  List.length l' = List.length l /\ forall k, nth_error l' k = if (k =? i)%nat then Some v else nth_error l k.
Proof.
  intros E. destruct (Nat.lt_ge_cases i (List.length l)) as [H|H].
  - destruct (aset_some l i v H) as (l2 & E2 & L & N). rewrite E in E2. injection E2 as <-. auto.
  - rewrite aset_none in E by auto. discriminate.
Qed.

Lemma mults_step values : forall size m0,
  List.length m0 = size ->
  (forall v, In v values -> 0 <= v < Z.of_nat size) ->
  exists m, for_each values (fun v mults =>
    let* _ := guard ((0 <=? v) && (v <? Z.of_nat size)) in
    let* m := aget mults (Z.to_nat v) in
    aset mults (Z.to_nat v) (m + 1)) m0 = Some m /\ List.length m = size /\
    forall j, (j < size)%nat -> at_ m j = at_ m0 j + occurrences (Z.of_nat j) values.
Proof.
  induction values as [|v values IH]; intros size m0 L H.
  - exists m0. cbn. split; auto. split; auto. intros. unfold occurrences. cbn. lia.
  - cbn [for_each]. assert (Hv : 0 <= v < Z.of_nat size) by (apply H; now left).
    destruct (Z.leb_spec 0 v); [|lia]. destruct (Z.ltb_spec v (Z.of_nat size)); [|lia]. cbn [andb guard obind].
    unfold aget. rewrite (nth_error_nth' m0 0) by lia. cbn [obind].
    destruct (aset_some m0 (Z.to_nat v) (nth (Z.to_nat v) m0 0 + 1)) as (m1 & E & L1 & N); [lia|].
    rewrite E. cbn [obind]. destruct (IH size m1) as (m & Em & Lm & Hm); [lia|intros; apply H; now right|].
    exists m. split; [exact Em|]. split; [exact Lm|]. intros j Hj. rewrite Hm by auto.
    assert (A : at_ m1 j = if (j =? Z.to_nat v)%nat then at_ m0 j + 1 else at_ m0 j).
    { unfold at_. specialize (N j). destruct (Nat.eqb_spec j (Z.to_nat v)).
      - subst j. now apply nth_error_nth with (d := 0) in N.
      - rewrite (nth_error_nth' m0 0) in N by lia. now apply nth_error_nth with (d := 0) in N. }
    rewrite A. unfold occurrences. cbn [filter].
    destruct (Nat.eqb_spec j (Z.to_nat v)); destruct (Z.eqb_spec (Z.of_nat j) v); try lia;
      cbn [List.length]; lia.
Qed.

Lemma multiplicities_ok values size : (forall v, In v values -> 0 <= v < Z.of_nat size) ->
  exists m, compute_multiplicities values size = Some m /\ List.length m = size /\
    forall j, (j < size)%nat -> at_ m j = occurrences (Z.of_nat j) values.
Proof.
  intros H. destruct (mults_step values size (repeat 0 size)) as (m & E & L & N); [apply repeat_length|auto|].
  exists m. split; [exact E|]. split; [exact L|]. intros j Hj. rewrite N by auto.
  unfold at_. rewrite nth_repeat. lia.
Qed.

Lemma multiplicities_err values size : (exists v, In v values /\ ~ (0 <= v < Z.of_nat size)) ->
  compute_multiplicities values size = None.
Proof.
  intros (v & Hv & Hr). unfold compute_multiplicities. generalize (repeat 0 size).
  induction values as [|a values IH]; intros m; [easy|]. cbn [for_each].
  destruct (Z.leb_spec 0 a), (Z.ltb_spec a (Z.of_nat size)); cbn [andb guard obind]; auto.
  destruct Hv as [->|Hv]; [lia|].
  destruct (aget m (Z.to_nat a)); cbn [obind]; auto. destruct (aset _ _ _); cbn [obind]; auto.
Qed.

Lemma multiplicities_iff values size m : compute_multiplicities values size = Some m ->
  (forall v, In v values -> 0 <= v < Z.of_nat size).
Proof.
  intros E v Hv. destruct (Z_le_dec 0 v), (Z_lt_dec v (Z.of_nat size)); try lia;
    rewrite multiplicities_err in E; try discriminate; exists v; split; auto; lia.
Qed.

Lemma zsum_app a b : zsum (a ++ b) = zsum a + zsum b.
Proof. induction a as [|x a IH]; cbn; [reflexivity|]. fold (zsum (a ++ b)). fold (zsum a). rewrite IH. ring. Qed.

Lemma zsum_map_add {A} (f g : A -> Z) l : zsum (map (fun x => f x + g x) l) = zsum (map f l) + zsum (map g l).
Proof. induction l as [|a l IH]; cbn; [reflexivity|]. fold (zsum (map (fun x => f x + g x) l)). fold (zsum (map f l)). fold (zsum (map g l)). lia. Qed.

Lemma zsum_zero {A} (f : A -> Z) l : (forall x, In x l -> f x = 0) -> zsum (map f l) = 0.
Proof.
  induction l as [|a l IH]; cbn; intros H; [reflexivity|]. fold (zsum (map f l)). rewrite H by auto. rewrite IH; auto.
Qed.

Lemma zsum_ext {A} (f g : A -> Z) l : (forall x, In x l -> f x = g x) -> zsum (map f l) = zsum (map g l).
Proof. intros H. f_equal. now apply map_ext_in. Qed.

Lemma zsum_one (f : nat -> Z) n k : (k < n)%nat -> (forall j, j <> k -> f j = 0) -> zsum (map f (seq 0 n)) = f k.
Proof.
  intros Hk H. replace n with (k + (1 + (n - k - 1)))%nat by lia. rewrite seq_app, map_app, zsum_app.
  rewrite (zsum_zero _ (seq 0 k)) by (intros j Hj; apply in_seq in Hj; apply H; lia).
  rewrite seq_app, map_app, zsum_app. cbn [seq map zsum fold_right Nat.add].
  rewrite (zsum_zero f) by (intros j Hj; apply in_seq in Hj; apply H; lia). lia.
Qed.

Lemma occurrences_total values size : (forall v, In v values -> 0 <= v < Z.of_nat size) ->
  zsum (map (fun j => occurrences (Z.of_nat j) values) (seq 0 size)) = zlen values.
Proof.
  induction values as [|v values IH]; intros H.
  - apply zsum_zero. reflexivity.
  - assert (Hv : 0 <= v < Z.of_nat size) by (apply H; now left).
    rewrite (zsum_ext _ (fun j => (if (j =? Z.to_nat v)%nat then 1 else 0) + occurrences (Z.of_nat j) values)).
    + rewrite zsum_map_add, IH by (intros; apply H; now right).
      rewrite (zsum_one _ _ (Z.to_nat v)) by (try lia; intros j Hj; apply Nat.eqb_neq in Hj; now rewrite Hj).
      rewrite Nat.eqb_refl. cbn [List.length]. lia.
    + intros j _. unfold occurrences. cbn [filter].
      destruct (Nat.eqb_spec j (Z.to_nat v)); destruct (Z.eqb_spec (Z.of_nat j) v); try lia;
        cbn [List.length]; lia.
Qed.

Lemma list_as_map (l : list Z) : l = map (at_ l) (seq 0 (List.length l)).
Proof.
  apply nth_error_ext'. intros i. destruct (Nat.lt_ge_cases i (List.length l)) as [H|H].
  - rewrite nth_error_map, (nth_error_nth' (seq 0 _) 0%nat) by (now rewrite seq_length).
    rewrite seq_nth by auto. cbn. now apply nth_error_nth'.
  - rewrite (proj2 (nth_error_None l i)) by lia. symmetry. apply nth_error_None. now rewrite map_length, seq_length.
Qed.

Lemma multiplicities_sum values size m : compute_multiplicities values size = Some m ->
  zsum m = zlen values.
Proof.
  intros E. pose proof (multiplicities_iff _ _ _ E) as H.
  destruct (multiplicities_ok values size H) as (m' & E' & L & N). rewrite E in E'. injection E' as <-.
  rewrite (list_as_map m), L, <- (occurrences_total values size H).
  apply zsum_ext. intros j Hj. apply in_seq in Hj. apply N. lia.
Qed.

(** ** Chunks *)

Lemma pow2_nat_Z (n : nat) : Z.of_nat (2 ^ n) = 2 ^ Z.of_nat n.
Proof. now rewrite Nat2Z.inj_pow. Qed.

Lemma chunks_exact v : 0 <= v ->
  Z.rem v (2 ^ Z.of_nat CHUNK_BITS) + 2 ^ Z.of_nat CHUNK_BITS * Z.quot v (2 ^ Z.of_nat CHUNK_BITS) = v /\
  in_width CHUNK_BITS (Z.rem v (2 ^ Z.of_nat CHUNK_BITS)).
Proof.
  intros H. change (2 ^ Z.of_nat CHUNK_BITS) with 512. unfold in_width. change (2 ^ Z.of_nat CHUNK_BITS) with 512.
  pose proof (Z.quot_rem v 512 ltac:(lia)). pose proof (Z.rem_bound_pos v 512 H ltac:(lia)). lia.
Qed.

Lemma chunk_hi v w : (CHUNK_BITS < w)%nat -> in_width w v -> in_width (w - CHUNK_BITS) (Z.quot v (2 ^ Z.of_nat CHUNK_BITS)).
Proof.
  unfold in_width. intros Hw (H1 & H2). change (2 ^ Z.of_nat CHUNK_BITS) with 512.
  rewrite Z.quot_div_nonneg by lia. split; [apply Z.div_pos; lia|]. apply Z.div_lt_upper_bound; [lia|].
  change 512 with (2 ^ Z.of_nat CHUNK_BITS). rewrite <- Z.pow_add_r by lia. now replace (Z.of_nat CHUNK_BITS + Z.of_nat (w - CHUNK_BITS)) with (Z.of_nat w) by lia.
Qed.

Lemma counts_ok values w m : compute_multiplicities values (2 ^ w) = Some m -> counts m values w.
Proof.
  intros E. pose proof (multiplicities_iff _ _ _ E) as H. pose proof (multiplicities_sum _ _ _ E) as S.
  destruct (multiplicities_ok values (2 ^ w) H) as (m' & E' & L & N). rewrite E in E'. injection E' as <-.
  split; [exact L|]. split; [exact N|exact S].
Qed.

Lemma at_map f l i : (i < List.length l)%nat -> at_ (map f l) i = f (at_ l i).
Proof. intros H. unfold at_. rewrite (nth_indep _ 0 (f 0)) by (now rewrite map_length). apply map_nth. Qed.

Lemma split_ok values w : (forall v, In v values -> in_width w v) ->
  if (w <=? CHUNK_BITS)%nat
  then exists m, split_range values w = Some (OneTable m) /\ counts m values w
  else exists c0 c1 m0 m1, split_range values w = Some (TwoChunks c0 c1 m0 m1) /\
    List.length c0 = List.length values /\ List.length c1 = List.length values /\
    (forall i, (i < List.length values)%nat ->
       at_ c0 i + 2 ^ Z.of_nat CHUNK_BITS * at_ c1 i = at_ values i /\
       in_width CHUNK_BITS (at_ c0 i) /\ in_width (w - CHUNK_BITS) (at_ c1 i)) /\
    counts m0 c0 CHUNK_BITS /\ counts m1 c1 (w - CHUNK_BITS).
Proof.
  intros H. unfold split_range. destruct (Nat.leb_spec w CHUNK_BITS) as [Hw|Hw].
  - destruct (Nat.ltb_spec CHUNK_BITS w); [lia|].
    destruct (multiplicities_ok values (2 ^ w)) as (m & E & _).
    { intros v Hv. rewrite pow2_nat_Z. now apply H. }
    exists m. rewrite E. split; [reflexivity|]. now apply counts_ok.
  - destruct (Nat.ltb_spec CHUNK_BITS w); [|lia].
    set (c0 := map (fun v => Z.rem v _) values). set (c1 := map (fun v => Z.quot v _) values).
    destruct (multiplicities_ok c0 (2 ^ CHUNK_BITS)) as (m0 & E0 & _).
    { intros v Hv. unfold c0 in Hv. apply in_map_iff in Hv. destruct Hv as (u & <- & Hu).
      rewrite pow2_nat_Z. apply chunks_exact. apply H in Hu. unfold in_width in Hu. lia. }
    destruct (multiplicities_ok c1 (2 ^ (w - CHUNK_BITS))) as (m1 & E1 & _).
    { intros v Hv. unfold c1 in Hv. apply in_map_iff in Hv. destruct Hv as (u & <- & Hu).
      rewrite pow2_nat_Z. apply chunk_hi; auto. }
    exists c0, c1, m0, m1. rewrite E0. cbn [obind]. rewrite E1. cbn [obind]. split; [reflexivity|].
    unfold c0 at 1, c1 at 1. rewrite !map_length. split; [reflexivity|]. split; [reflexivity|].
    split; [|split; now apply counts_ok].
    intros i Hi. assert (Iv : In (at_ values i) values) by (apply nth_In; auto).
    pose proof (H _ Iv) as Hw'.
    assert (A0 : at_ c0 i = Z.rem (at_ values i) (2 ^ Z.of_nat CHUNK_BITS)).
    { unfold c0. now rewrite (at_map (fun v => Z.rem v _)). }
    assert (A1 : at_ c1 i = Z.quot (at_ values i) (2 ^ Z.of_nat CHUNK_BITS)).
    { unfold c1. now rewrite (at_map (fun v => Z.quot v _)). }
    rewrite A0, A1. destruct (chunks_exact (at_ values i)) as (E & R); [unfold in_width in Hw'; lia|].
    split; [exact E|]. split; [exact R|]. now apply chunk_hi.
Qed.

Lemma rem_quot_width v w : (CHUNK_BITS < w)%nat -> in_width CHUNK_BITS (Z.rem v (2 ^ Z.of_nat CHUNK_BITS)) ->
  in_width (w - CHUNK_BITS) (Z.quot v (2 ^ Z.of_nat CHUNK_BITS)) -> in_width w v.
Proof.
  unfold in_width. intros Hw H0 H1.
  replace (2 ^ Z.of_nat w) with (2 ^ Z.of_nat CHUNK_BITS * 2 ^ Z.of_nat (w - CHUNK_BITS))
    by (rewrite <- Z.pow_add_r by lia; f_equal; lia).
  change (2 ^ Z.of_nat CHUNK_BITS) with 512 in *. pose proof (Z.quot_rem v 512 ltac:(lia)). nia.
Qed.

(** A value outside the width is an error, never a wrong shred. *)
Lemma split_err values w : (exists v, In v values /\ ~ in_width w v) -> split_range values w = None.
Proof.
  intros (v & Hv & Hr). unfold split_range. destruct (Nat.ltb_spec CHUNK_BITS w) as [Hw|Hw].
  - destruct (compute_multiplicities _ (2 ^ CHUNK_BITS)) as [m0|] eqn:E0; [|reflexivity]. cbn [obind].
    destruct (compute_multiplicities _ (2 ^ (w - CHUNK_BITS))) as [m1|] eqn:E1; [|reflexivity].
    exfalso. apply Hr. apply rem_quot_width; [exact Hw| |].
    + unfold in_width. rewrite <- (pow2_nat_Z CHUNK_BITS) at 2. apply (multiplicities_iff _ _ _ E0).
      apply in_map_iff. now exists v.
    + unfold in_width. rewrite <- (pow2_nat_Z (w - CHUNK_BITS)). apply (multiplicities_iff _ _ _ E1).
      apply in_map_iff. now exists v.
  - rewrite multiplicities_err; [reflexivity|]. exists v. split; [exact Hv|]. now rewrite pow2_nat_Z.
Qed.
