(** Slice. *)
From Coq Require Import List Arith Bool ZArith Lia Sorted.
From Verif Require Import Base.Array Spec.Shapes Spec.Tensors Model.Shapes Model.DataMovement Proofs.Shapes Proofs.Tensors Proofs.DataMovement.
Import ListNotations.
Local Open Scope list_scope.

(** *** The kept positions form an arithmetic progression *)
Lemma sorted_same l : forall m, StronglySorted lt l -> StronglySorted lt m -> (forall x, In x l <-> In x m) -> l = m.
Proof.
  induction l as [|a l IH]; intros [|b m] Sl Sm H; auto.
  - destruct (proj2 (H b) (or_introl eq_refl)).
  - destruct (proj1 (H a) (or_introl eq_refl)).
  - apply StronglySorted_inv in Sl. destruct Sl as (Sl & Fl). apply StronglySorted_inv in Sm. destruct Sm as (Sm & Fm).
    rewrite Forall_forall in Fl, Fm.
    assert (a = b).
    { destruct (proj1 (H a) (or_introl eq_refl)) as [E|Ha]; auto. destruct (proj2 (H b) (or_introl eq_refl)) as [E|Hb]; auto.
      specialize (Fl _ Hb). specialize (Fm _ Ha). lia. }
    subst b. f_equal. apply IH; auto. intros x. specialize (H x). cbn in H. split; intros Hx.
    + destruct (proj1 H (or_intror Hx)) as [<-|]; auto. specialize (Fl _ Hx). lia.
    + destruct (proj2 H (or_intror Hx)) as [<-|]; auto. specialize (Fm _ Hx). lia.
Qed.
Lemma sorted_seq n : forall a, StronglySorted lt (seq a n).
Proof.
  induction n as [|n IH]; intros a; cbn; constructor; auto. apply Forall_forall. intros x Hx. apply in_seq in Hx. lia.
Qed.
Lemma sorted_filter f l : StronglySorted lt l -> StronglySorted lt (filter f l).
Proof.
  induction 1 as [|a l S IH F]; cbn; [constructor|]. destruct (f a); auto. constructor; auto.
  apply Forall_forall. intros x Hx. apply filter_In in Hx. rewrite Forall_forall in F. apply F. tauto.
Qed.
Lemma sorted_map (g : nat -> nat) n : (forall i j, i < j < n -> g i < g j) -> forall a k, a + k = n -> StronglySorted lt (map g (seq a k)).
Proof.
  intros H a k. revert a. induction k as [|k IH]; intros a E; cbn; constructor.
  - apply IH. lia.
  - apply Forall_forall. intros x Hx. apply in_map_iff in Hx. destruct Hx as (i & <- & Hi). apply in_seq in Hi. apply H. lia.
Qed.

Definition slice_start (d : nat) (s : Z) : Z := clamp 0 (Z.of_nat d) (if (s <? 0)%Z then Z.of_nat d + s else s)%Z.
Definition slice_count (d : nat) (s e step : Z) : nat :=
  if (slice_start d s <? slice_start d e)%Z then Z.to_nat (div_ceil (slice_start d e - slice_start d s) step) else 0.
Lemma slice_start_bounds d s : (0 <= slice_start d s <= Z.of_nat d)%Z.
Proof.
  unfold slice_start, clamp. destruct (Z.ltb_spec s 0);
  repeat match goal with |- context [Z.ltb ?a ?b] => destruct (Z.ltb_spec a b) end; lia.
Qed.
Lemma slice_start_max d s : slice_start d s = Z.min (Z.of_nat d) (Z.max 0 (from_end d s)).
Proof.
  unfold slice_start, clamp, from_end. destruct (Z.ltb_spec s 0);
  repeat match goal with |- context [Z.ltb ?a ?b] => destruct (Z.ltb_spec a b) end; lia.
Qed.
Lemma div_ceil_spec a b i : (0 < b)%Z -> (0 < a)%Z -> (0 <= i)%Z -> (i < div_ceil a b <-> i * b < a)%Z.
Proof.
  intros Hb Ha Hi. unfold div_ceil. split; intros H.
  - assert (i + 1 <= (a + b - 1) / b)%Z by lia. pose proof (Z.mul_div_le (a + b - 1) b Hb). nia.
  - assert (i + 1 <= (a + b - 1) / b)%Z; [|lia]. apply Z.div_le_lower_bound; nia.
Qed.
Lemma slice_count_spec d s e step i : (0 < step)%Z ->
  i < slice_count d s e step <-> (slice_start d s + Z.of_nat i * step < slice_start d e)%Z.
Proof.
  intros Hs. unfold slice_count. pose proof (slice_start_bounds d s). pose proof (slice_start_bounds d e).
  destruct (Z.ltb_spec (slice_start d s) (slice_start d e)).
  - pose proof (div_ceil_spec (slice_start d e - slice_start d s) step (Z.of_nat i) Hs ltac:(lia) ltac:(lia)). lia.
  - split; [lia|]. nia.
Qed.
Theorem slice_positions_progression d s e step : (0 < step)%Z ->
  slice_positions d s e step = map (fun i => Z.to_nat (slice_start d s + Z.of_nat i * step)) (seq 0 (slice_count d s e step)).
Proof.
  intros Hs. unfold slice_positions. rewrite (proj2 (Z.ltb_lt _ _) Hs).
  pose proof (slice_start_bounds d s) as Bs. pose proof (slice_start_bounds d e) as Be.
  apply sorted_same.
  - apply sorted_filter, sorted_seq.
  - apply (sorted_map _ (slice_count d s e step)); [|lia]. intros i j Hij. nia.
  - intros x. rewrite filter_In, in_seq, in_map_iff. rewrite !andb_true_iff, Z.leb_le, Z.ltb_lt, Z.eqb_eq.
    pose proof (slice_start_max d s) as Es. pose proof (slice_start_max d e) as Ee. split.
    + intros (Hx & (H1 & H2) & H3).
      assert (Em : Z.max 0 (from_end d s) = slice_start d s) by lia. rewrite Em in *.
      apply Z.mod_divide in H3; [|lia]. destruct H3 as (q & Hq).
      assert (0 <= q)%Z by nia. exists (Z.to_nat q). rewrite in_seq.
      assert (Z.to_nat q < slice_count d s e step).
      { apply slice_count_spec; auto. rewrite Z2Nat.id by lia. lia. }
      rewrite Z2Nat.id by lia. split; lia.
    + intros (i & <- & Hi). rewrite in_seq in Hi. destruct Hi as (_ & Hi). cbn in Hi. rewrite slice_count_spec in Hi by auto.
      rewrite Z2Nat.id by nia. assert (0 <= Z.of_nat i * step)%Z by nia.
      assert (Em : Z.max 0 (from_end d s) = slice_start d s) by lia. rewrite Em.
      split; [lia|]. split; [lia|]. replace (slice_start d s + Z.of_nat i * step - slice_start d s)%Z with (Z.of_nat i * step)%Z by lia.
      apply Z.mod_mul. lia.
Qed.

(** *** The two loops over the axes *)
Section Loops.
Variables (s : list nat) (axes starts ends steps : list Z).
Hypothesis Hsl : length starts = length axes.
Hypothesis Hel : length ends = length axes.
Hypothesis Htl : length steps = length axes.
Let rank := length s.
Let pos (a : Z) := axis_position (Z.of_nat rank) a.
Hypothesis Hv : Forall (valid_axis (Z.of_nat rank)) axes.
Hypothesis Hn : NoDup (map pos axes).
Hypothesis Hp : Forall (fun z => (0 < z)%Z) steps.

Let cnt i := slice_count (nth (pos (nth i axes 0%Z)) s 0) (nth i starts 0%Z) (nth i ends 0%Z) (nth i steps 0%Z).

Lemma step_pos i : i < length axes -> (0 < nth i steps 0)%Z.
Proof. intros H. rewrite Forall_forall in Hp. apply Hp. apply nth_In. lia. Qed.
Lemma enum_fresh done i a rest : enumerate axes = done ++ (i, a) :: rest ->
  i < length axes /\ nth i axes 0%Z = a /\ ~ In (pos a) (map (fun e => pos (snd e)) done).
Proof.
  intros E. assert (I : In (i, a) (enumerate axes)) by (rewrite E; apply in_elt).
  apply (enumerate_in axes 0%Z) in I. destruct I as (L & A). split; auto. split; auto. intros C.
  pose proof (enumerate_snd axes) as Es. rewrite E, map_app in Es. cbn in Es. rewrite <- Es in Hn.
  rewrite map_app in Hn. cbn in Hn. apply NoDup_remove_2 in Hn. apply Hn. apply in_or_app. left. now rewrite map_map.
Qed.

Definition infer_body := (fun '(i, axis_raw) (out_shape : list nat) =>
    let* axis := normalize_axis rank axis_raw in
    let* d := aget s axis in
    let dim := Z.of_nat d in
    let s := nth i starts 0%Z in
    let start := clamp 0 dim (if (s <? 0)%Z then dim + s else s)%Z in
    let e := nth i ends dim in
    let stop := clamp 0 dim (if (e <? 0)%Z then dim + e else e)%Z in
    let step := nth i steps 1%Z in
    if (step <=? 0)%Z then None else
    aset out_shape axis (if (start <? stop)%Z then Z.to_nat (div_ceil (stop - start) step) else 0)).
Lemma infer_loop : exists out, for_each (enumerate axes) infer_body s = Some out /\ length out = rank /\
  (forall k, k < rank -> ~ In k (map pos axes) -> nth k out 0 = nth k s 0) /\
  (forall i, i < length axes -> nth (pos (nth i axes 0%Z)) out 0 = cnt i).
Proof.
  destruct (for_each_rule (fun done out => length out = rank /\
      (forall k, k < rank -> ~ In k (map (fun e => pos (snd e)) done) -> nth k out 0 = nth k s 0) /\
      (forall i a, In (i, a) done -> nth (pos a) out 0 = cnt i)) infer_body (enumerate axes) s) as (out & E & L & H1 & H2).
  - repeat split; auto. intros ? ? [].
  - intros done (i, a) rest out Ed (L & H1 & H2). destruct (enum_fresh _ _ _ _ Ed) as (Hi & Ha & Fr).
    assert (Va : valid_axis (Z.of_nat rank) a).
    { rewrite Forall_forall in Hv. apply Hv. rewrite <- Ha. now apply nth_In. }
    pose proof (axis_position_lt _ _ Va) as Lp. fold (pos a) in Lp.
    unfold infer_body. rewrite (proj2 (normalize_axis_ok rank a (pos a)) (conj Va eq_refl)). cbn [obind].
    rewrite nth_get by exact Lp. cbn [obind]. cbv zeta. rewrite (nth_indep ends _ 0%Z) by lia. rewrite (nth_indep steps 1%Z 0%Z) by lia.
    pose proof (step_pos i Hi) as Sp. rewrite (proj2 (Z.leb_gt _ _) Sp). rewrite aset_put by lia.
    eexists. split; [reflexivity|]. split; [rewrite put_length; lia|]. split.
    + intros k Hk Nk. rewrite map_app in Nk. rewrite put_nth by lia. destruct (Nat.eqb_spec k (pos a)) as [->|].
      * exfalso. apply Nk. apply in_or_app. right. now left.
      * apply H1; auto. intros C. apply Nk. apply in_or_app. auto.
    + intros i' a' I. apply in_app_or in I. rewrite put_nth by lia. destruct I as [I|[I|[]]].
      * destruct (Nat.eqb_spec (pos a') (pos a)) as [Ec|]; [|now apply H2].
        exfalso. apply Fr. rewrite <- Ec. apply in_map_iff. now exists (i', a').
      * injection I as <- <-. rewrite Nat.eqb_refl. unfold cnt. rewrite Ha. reflexivity.
  - exists out. split; auto. split; auto. split.
    + intros k Hk Nk. apply H1; auto. rewrite <- (enumerate_snd axes) in Nk. now rewrite map_map in Nk.
    + intros i Hi. apply H2. apply (enumerate_in axes 0%Z). auto.
Qed.

Definition build_body (output_shape : list nat) := (fun '(i, axis_raw) (st : list Z * list Z) =>
    let (axis_start, axis_step) := st in
    let* axis := normalize_axis rank axis_raw in
    let* d := aget s axis in
    let dim := Z.of_nat d in
    let s := nth i starts 0%Z in
    let s_norm := clamp 0 dim (if (s <? 0)%Z then dim + s else s)%Z in
    let* axis_start := aset axis_start axis s_norm in
    let step := nth i steps 1%Z in
    if (step =? 0)%Z then None else
    let* axis_step := aset axis_step axis step in
    let e := nth i ends dim in
    let e_norm := clamp 0 dim (if (e <? 0)%Z then e + dim else e)%Z in
    let expected_len :=
      if (0 <? step)%Z then (if (s_norm <? e_norm)%Z then div_ceil (e_norm - s_norm) step else 0%Z)
      else (if (e_norm <? s_norm)%Z then div_ceil (s_norm - e_norm) (- step) else 0%Z) in
    let* o := aget output_shape axis in
    let* _ := guard (expected_len =? Z.of_nat o)%Z in
    Some (axis_start, axis_step)).
Lemma build_loop out : length out = rank ->
  (forall i, i < length axes -> nth (pos (nth i axes 0%Z)) out 0 = cnt i) ->
  exists st sp, for_each (enumerate axes) (build_body out) (repeat 0%Z rank, repeat 1%Z rank) = Some (st, sp) /\
  length st = rank /\ length sp = rank /\
  (forall k, k < rank -> ~ In k (map pos axes) -> nth k st 0%Z = 0%Z /\ nth k sp 0%Z = 1%Z) /\
  (forall i, i < length axes -> nth (pos (nth i axes 0%Z)) st 0%Z = slice_start (nth (pos (nth i axes 0%Z)) s 0) (nth i starts 0%Z) /\
    nth (pos (nth i axes 0%Z)) sp 0%Z = nth i steps 0%Z).
Proof.
  intros Lo Ho.
  destruct (for_each_rule (fun done (ss : list Z * list Z) => length (fst ss) = rank /\ length (snd ss) = rank /\
      (forall k, k < rank -> ~ In k (map (fun e => pos (snd e)) done) -> nth k (fst ss) 0%Z = 0%Z /\ nth k (snd ss) 0%Z = 1%Z) /\
      (forall i a, In (i, a) done -> nth (pos a) (fst ss) 0%Z = slice_start (nth (pos a) s 0) (nth i starts 0%Z) /\ nth (pos a) (snd ss) 0%Z = nth i steps 0%Z))
      (build_body out) (enumerate axes) (repeat 0%Z rank, repeat 1%Z rank)) as ((st, sp) & E & L1 & L2 & H1 & H2).
  - cbn. rewrite !repeat_length. repeat split; auto.
    + rewrite nth_repeat. reflexivity.
    + rewrite (nth_indep _ _ 1%Z) by (rewrite repeat_length; auto). apply nth_repeat.
    + contradiction.
    + contradiction.
  - intros done (i, a) rest (st, sp) Ed (L1 & L2 & H1 & H2). cbn [fst snd] in *. destruct (enum_fresh _ _ _ _ Ed) as (Hi & Ha & Fr).
    assert (Va : valid_axis (Z.of_nat rank) a).
    { rewrite Forall_forall in Hv. apply Hv. rewrite <- Ha. now apply nth_In. }
    pose proof (axis_position_lt _ _ Va) as Lp. fold (pos a) in Lp.
    unfold build_body. rewrite (proj2 (normalize_axis_ok rank a (pos a)) (conj Va eq_refl)). cbn [obind].
    rewrite (nth_get s) by exact Lp. cbn [obind]. cbv zeta. rewrite aset_put by lia. cbn [obind].
    rewrite (nth_indep ends _ 0%Z) by lia. rewrite (nth_indep steps 1%Z 0%Z) by lia.
    pose proof (step_pos i Hi) as Sp. rewrite (proj2 (Z.eqb_neq _ _)) by lia. rewrite aset_put by lia. cbn [obind].
    rewrite (proj2 (Z.ltb_lt _ _) Sp). rewrite (nth_get out) by lia. cbn [obind]. specialize (Ho i Hi). rewrite Ha in Ho. rewrite Ho.
    rewrite (proj2 (Z.eqb_eq _ _)).
    2:{ unfold cnt, slice_count. rewrite Ha. unfold slice_start. set (D := Z.of_nat (nth (pos a) s 0)).
        rewrite (Z.add_comm (nth i ends 0%Z) D).
        match goal with |- context [(?p <? ?q)%Z] => destruct (Z.ltb_spec p q) as [Q|Q] end;
          match goal with |- (if (?p <? ?q)%Z then _ else _) = _ => destruct (Z.ltb_spec p q) | _ => idtac end; try reflexivity; try lia.
        all: try (rewrite Z2Nat.id; [reflexivity|]; unfold div_ceil; apply Z.div_pos; lia). }
    cbn [guard obind]. eexists. split; [reflexivity|]. cbn [fst snd]. split; [rewrite put_length; lia|]. split; [rewrite put_length; lia|]. split.
    + intros k Hk Nk. rewrite map_app in Nk. rewrite !put_nth by lia. destruct (Nat.eqb_spec k (pos a)) as [->|].
      * exfalso. apply Nk. apply in_or_app. right. now left.
      * apply H1; auto. intros C. apply Nk. apply in_or_app. auto.
    + intros i' a' I. apply in_app_or in I. rewrite !put_nth by lia. destruct I as [I|[I|[]]].
      * destruct (Nat.eqb_spec (pos a') (pos a)) as [Ec|]; [|now apply H2].
        exfalso. apply Fr. rewrite <- Ec. apply in_map_iff. now exists (i', a').
      * injection I as <- <-. rewrite Nat.eqb_refl. split; reflexivity.
  - cbn [fst snd] in *. exists st, sp. split; auto. split; auto. split; auto. split.
    + intros k Hk Nk. apply H1; auto. rewrite <- (enumerate_snd axes) in Nk. now rewrite map_map in Nk.
    + intros i Hi. apply H2. apply (enumerate_in axes 0%Z). auto.
Qed.
End Loops.

Lemma in_map_nth (f : Z -> nat) (l : list Z) k : In k (map f l) -> exists i, i < length l /\ k = f (nth i l 0%Z).
Proof.
  intros H. apply in_map_iff in H. destruct H as (a & <- & Ha). apply (In_nth _ _ 0%Z) in Ha. destruct Ha as (i & Hi & <-). eauto.
Qed.
Lemma map_seq_id n : map (fun i => Z.to_nat (0 + Z.of_nat i * 1)) (seq 0 n) = seq 0 n.
Proof. rewrite <- (map_id (seq 0 n)) at 2. apply map_ext. intros i. lia. Qed.

Theorem slice_result {T} starts ends axes_in steps_in (x : tensor T) :
  let axes := slice_axes (length starts) axes_in in
  let steps := slice_steps (length starts) steps_in in
  let pos := axis_position (Z.of_nat (length (dims x))) in
  well_formed x -> length ends = length starts -> length axes = length starts -> length steps = length starts ->
  Forall (valid_axis (Z.of_nat (length (dims x)))) axes -> NoDup (map pos axes) -> Forall (fun z => (0 < z)%Z) steps ->
  exists y ranges, slice starts ends axes_in steps_in x = Some y /\ well_formed y /\
    slice_ranges (dims x) (map pos axes) starts ends steps ranges /\ selected ranges x y.
Proof.
  intros axes steps pos W Le La Lt V N P. set (s := dims x) in *. set (rank := length s).
  destruct (infer_loop s axes starts ends steps ltac:(lia) ltac:(lia) ltac:(lia) V N P) as (out & Ei & Lo & Ho1 & Ho2).
  destruct (build_loop s axes starts ends steps ltac:(lia) ltac:(lia) ltac:(lia) V N P out Lo Ho2) as (st & sp & Eb & Ls & Lp & Hb1 & Hb2).
  fold rank in Lo, Ls, Lp.
  change (forall k, k < rank -> ~ In k (map pos axes) -> nth k out 0 = nth k s 0) in Ho1.
  change (forall i, i < length axes -> nth (pos (nth i axes 0%Z)) out 0 =
    slice_count (nth (pos (nth i axes 0%Z)) s 0) (nth i starts 0%Z) (nth i ends 0%Z) (nth i steps 0%Z)) in Ho2.
  change (forall k, k < rank -> ~ In k (map pos axes) -> nth k st 0%Z = 0%Z /\ nth k sp 0%Z = 1%Z) in Hb1.
  change (forall i, i < length axes -> nth (pos (nth i axes 0%Z)) st 0%Z = slice_start (nth (pos (nth i axes 0%Z)) s 0) (nth i starts 0%Z) /\
    nth (pos (nth i axes 0%Z)) sp 0%Z = nth i steps 0%Z) in Hb2.
  set (range k := map (fun i => Z.to_nat (nth k st 0 + Z.of_nat i * nth k sp 0)%Z) (seq 0 (nth k out 0))).
  set (ranges := map range (seq 0 rank)).
  assert (Lr : length ranges = rank) by (unfold ranges; now rewrite map_length, seq_length).
  assert (Nr : forall k, k < rank -> nth k ranges [] = range k).
  { intros k Hk. unfold ranges. rewrite (map_nth_lt _ _ _ 0) by (now rewrite seq_length). now rewrite seq_nth. }
  assert (B : forall k c, k < rank -> c < nth k out 0 -> (0 <= nth k st 0 + Z.of_nat c * nth k sp 0 < Z.of_nat (nth k s 0%nat))%Z).
  { intros k c Hk Hc. destruct (in_dec Nat.eq_dec k (map pos axes)) as [I|I].
    - apply in_map_nth in I. destruct I as (i & Hi & ->). destruct (Hb2 i Hi) as (-> & ->). rewrite (Ho2 i Hi) in Hc.
      pose proof (step_pos s axes starts ends steps ltac:(lia) ltac:(lia) ltac:(lia) P i Hi) as Sp.
      apply slice_count_spec in Hc; [|exact Sp]. pose proof (slice_start_bounds (nth (pos (nth i axes 0%Z)) s 0) (nth i starts 0%Z)).
      pose proof (slice_start_bounds (nth (pos (nth i axes 0%Z)) s 0) (nth i ends 0%Z)). nia.
    - destruct (Hb1 k Hk I) as (-> & ->). rewrite (Ho1 k Hk I) in Hc. lia. }
  assert (SR : slice_ranges s (map pos axes) starts ends steps ranges).
  { split; [auto|]. split.
    - intros k Hk I. rewrite Nr by auto. unfold range. destruct (Hb1 k Hk I) as (-> & ->). rewrite (Ho1 k Hk I). apply map_seq_id.
    - intros i Hi. rewrite map_length in Hi. rewrite (map_nth_lt pos _ _ 0%Z) by auto.
      rewrite Nr. 2:{ apply axis_position_lt. rewrite Forall_forall in V. apply V. now apply nth_In. }
      unfold range. destruct (Hb2 i Hi) as (-> & ->). rewrite (Ho2 i Hi).
      symmetry. apply slice_positions_progression. apply (step_pos s axes starts ends steps ltac:(lia) ltac:(lia) ltac:(lia) P i Hi). }
  unfold slice. fold s.
  assert (Inf : infer_slice s starts ends axes_in steps_in = Some out).
  { unfold infer_slice. rewrite (proj2 (Nat.eqb_eq _ _)) by lia. cbn [guard obind].
    assert (G1 : (match axes_in with Some ax => length ax =? length starts | None => true end) = true).
    { unfold axes, slice_axes in La. destruct axes_in; auto. now apply Nat.eqb_eq. }
    assert (G2 : (match steps_in with Some ax => length ax =? length starts | None => true end) = true).
    { unfold steps, slice_steps in Lt. destruct steps_in; auto. now apply Nat.eqb_eq. }
    rewrite G1, G2. cbn [guard obind]. exact Ei. }
  rewrite Inf. cbn [obind]. fold (slice_axes (length starts) axes_in). fold (slice_steps (length starts) steps_in).
  fold axes steps. unfold slice_index_map. fold rank. unfold build_body in Eb. fold rank in Eb. rewrite Eb. cbn [obind]. clear Eb Inf Ei.
  set (g := map2 (fun r i => nth i r 0) ranges).
  assert (Rg : forall oc, in_range oc out -> in_range (g oc) s /\ forall k, k < rank -> nth k (g oc) 0 = Z.to_nat (nth k st 0 + Z.of_nat (nth k oc 0%nat) * nth k sp 0)%Z).
  { intros oc R. apply in_range_nth in R. destruct R as (Loc & R).
    assert (Gk : forall k, k < rank -> nth k (g oc) 0 = Z.to_nat (nth k st 0 + Z.of_nat (nth k oc 0%nat) * nth k sp 0)%Z).
    { intros k Hk. unfold g. rewrite (map2_nth _ _ _ _ [] 0) by lia. rewrite Nr by auto. unfold range.
      specialize (R k ltac:(lia)). rewrite (map_nth_lt _ _ _ 0) by (now rewrite seq_length). now rewrite seq_nth. }
    split; auto. apply in_range_nth. split; [unfold g; rewrite map2_length; lia|]. intros k Hk. rewrite Gk by auto.
    specialize (B k (nth k oc 0) Hk ltac:(apply R; lia)). lia. }
  destruct (index_map_ok (fun out_flat =>
    let* out_coords := unravel out_flat out in
    let* in_coords := omap (fun ax =>
      let* s0 := aget st ax in
      let* c := aget out_coords ax in
      let* st := aget sp ax in
      let* d := aget s ax in
      if ((s0 + Z.of_nat c * st <? 0) || (Z.of_nat d <=? s0 + Z.of_nat c * st))%Z then None
      else Some (Z.to_nat (s0 + Z.of_nat c * st))) (seq 0 rank) in
    ravel in_coords s) out (fun oc => row_major (g oc) s)) as (m & -> & Lm & Hm).
  { intros oc R. rewrite unravel_row_major by auto. cbn [obind]. destruct (Rg oc R) as (Rs & Gk).
    pose proof (in_range_length _ _ R) as Loc. apply in_range_nth in R. destruct R as (_ & R).
    rewrite (omap_seq _ (fun k => nth k (g oc) 0)).
    - cbn [obind]. replace (map (fun k => nth k (g oc) 0) (seq 0 rank)) with (g oc).
      + apply ravel_row_major. now apply in_range_length.
      + apply (list_nth_ext 0); [rewrite map_length, seq_length; now apply in_range_length|].
        intros k Hk. rewrite (in_range_length _ _ Rs) in Hk. now rewrite nth_map_seq.
    - intros k Hk. rewrite (nth_getZ st k 0%Z) by lia. cbn [obind]. rewrite nth_get by lia. cbn [obind].
      rewrite (nth_getZ sp k 0%Z) by lia. cbn [obind]. rewrite nth_get by auto. cbn [obind]. cbv zeta.
      specialize (B k (nth k oc 0) Hk ltac:(apply R; lia)).
      rewrite (proj2 (Z.ltb_ge _ _)), (proj2 (Z.leb_gt _ _)) by lia. cbn [orb]. now rewrite Gk. }
  cbn [obind]. destruct (select_ok x out m g W Lm) as (y & E & Wy & Dy & H).
  { intros oc R. split; [now apply Hm|now apply Rg]. }
  exists y, ranges. split; auto. split; auto. split; auto. split; [auto|]. rewrite Dy. split; [|exact H].
  apply (list_nth_ext 0); [rewrite map_length; lia|]. intros k Hk. rewrite (map_nth_lt _ _ _ []) by lia.
  rewrite Nr by lia. unfold range. now rewrite map_length, seq_length.
Qed.

(** What an accepted slice must satisfy. *)
Lemma for_each_each {A S} (f : A -> S -> option S) xs : forall s s', for_each xs f s = Some s' ->
  forall x, In x xs -> exists t t', f x t = Some t'.
Proof.
  induction xs as [|a xs IH]; cbn; intros s s' H x Hx; [contradiction|].
  destruct (f a s) as [t|] eqn:E; [|discriminate]. cbn in H. destruct Hx as [->|Hx]; [eauto|]. eapply IH; eauto.
Qed.
Theorem slice_only {T} starts ends axes_in steps_in (x y : tensor T) :
  let axes := slice_axes (length starts) axes_in in
  let steps := slice_steps (length starts) steps_in in
  slice starts ends axes_in steps_in x = Some y ->
  length ends = length starts /\ length axes = length starts /\ length steps = length starts /\
  Forall (valid_axis (Z.of_nat (length (dims x)))) axes /\ Forall (fun z => (0 < z)%Z) steps.
Proof.
  intros axes steps E. unfold slice in E. destruct (infer_slice (dims x) starts ends axes_in steps_in) as [out|] eqn:Ei; [|discriminate].
  clear E. unfold infer_slice in Ei. destruct (Nat.eqb_spec (length starts) (length ends)) as [Le|]; [|discriminate]. cbn [guard obind] in Ei.
  assert (La : length axes = length starts).
  { unfold axes, slice_axes. destruct axes_in as [ax|]; [|now rewrite map_length, seq_length].
    destruct (Nat.eqb_spec (length ax) (length starts)); [auto|discriminate]. }
  assert (Lt : length steps = length starts).
  { unfold steps, slice_steps. destruct steps_in as [ax|]; [|now rewrite repeat_length].
    destruct (Nat.eqb_spec (length ax) (length starts)); [auto|]. destruct axes_in as [ax'|]; [|discriminate].
    destruct (length ax' =? length starts); discriminate. }
  repeat split; auto.
  all: fold (slice_axes (length starts) axes_in) in Ei; fold (slice_steps (length starts) steps_in) in Ei; fold axes steps in Ei.
  all: match type of Ei with (let* _ := guard ?b in _) = _ => destruct b; [|discriminate] end; cbn [guard obind] in Ei.
  all: match type of Ei with (let* _ := guard ?b in _) = _ => destruct b; [|discriminate] end; cbn [guard obind] in Ei.
  all: pose proof (for_each_each _ _ _ _ Ei) as H; clear Ei.
  - apply Forall_forall. intros a Ha. apply (In_nth _ _ 0%Z) in Ha. destruct Ha as (i & Hi & Ea).
    destruct (H (i, a)) as (t & t' & E); [apply (enumerate_in axes 0%Z); auto|].
    destruct (normalize_axis (length (dims x)) a) as [k|] eqn:Ek; [|discriminate]. now apply normalize_axis_ok in Ek.
  - apply Forall_forall. intros z Hz. apply (In_nth _ _ 0%Z) in Hz. destruct Hz as (i & Hi & Ez).
    destruct (H (i, nth i axes 0%Z)) as (t & t' & E); [apply (enumerate_in axes 0%Z); split; [lia|reflexivity]|].
    destruct (normalize_axis (length (dims x)) (nth i axes 0%Z)); [|discriminate]. cbn [obind] in E.
    destruct (aget (dims x) n); [|discriminate]. cbn [obind] in E. cbv zeta in E. rewrite (nth_indep steps 1%Z 0%Z) in E by lia.
    rewrite Ez in E. destruct (Z.leb_spec z 0); [discriminate|lia].
Qed.
