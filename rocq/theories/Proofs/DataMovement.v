(** Transpose, Slice and Split. *)
From Coq Require Import List Arith Bool ZArith Lia Sorted.
From Verif Require Import Base.Array Spec.Shapes Spec.Tensors Model.Shapes Model.DataMovement Proofs.Shapes Proofs.Tensors.
Import ListNotations.
Local Open Scope list_scope.

(** *** Transpose *)
Lemma nodup_length_iff (l : list nat) : length (nodup Nat.eq_dec l) = length l <-> NoDup l.
Proof.
  split; intros H.
  - apply (@NoDup_incl_NoDup _ (nodup Nat.eq_dec l)); [apply NoDup_nodup|lia|]. intros x Hx. now apply nodup_In in Hx.
  - now rewrite nodup_fixed_point.
Qed.
Lemma omap_normalize rank raw p : omap (normalize_axis rank) raw = Some p <->
  Forall (valid_axis (Z.of_nat rank)) raw /\ p = map (axis_position (Z.of_nat rank)) raw.
Proof.
  revert p. induction raw as [|a raw IH]; intros p; cbn [omap map].
  - split; [intros E; injection E as <-; auto|intros (_ & ->); reflexivity].
  - destruct (normalize_axis rank a) as [i|] eqn:E; cbn [obind].
    + apply normalize_axis_ok in E. destruct E as (V & ->). split.
      * destruct (omap (normalize_axis rank) raw) as [q|]; [|discriminate]. cbn [obind]. intros E. injection E as <-.
        destruct (proj1 (IH q) eq_refl) as (F & ->). auto.
      * intros (F & ->). inversion F; subst. rewrite (proj2 (IH _) (conj H2 eq_refl)). reflexivity.
    + split; [discriminate|]. intros (F & _). inversion F; subst.
      rewrite (proj2 (normalize_axis_ok rank a _) (conj H1 eq_refl)) in E. discriminate.
Qed.
Lemma rev_seq_permutation n : permutation_of n (rev (seq 0 n)).
Proof.
  repeat split; [now rewrite rev_length, seq_length|apply NoDup_rev, seq_NoDup|].
  apply Forall_forall. intros i Hi. apply in_rev in Hi. apply in_seq in Hi. lia.
Qed.
Theorem resolve_perm_ok rank perm p : resolve_perm rank perm = Some p <-> perm_of rank perm p /\ permutation_of rank p.
Proof.
  unfold resolve_perm, perm_of. destruct perm as [raw|].
  - destruct (omap (normalize_axis rank) raw) as [q|] eqn:E; cbn [obind].
    + apply omap_normalize in E. destruct E as (F & ->).
      set (q := map (axis_position (Z.of_nat rank)) raw).
      assert (Fq : Forall (fun i => i < rank) q).
      { apply Forall_forall. intros i Hi. apply in_map_iff in Hi. destruct Hi as (a & <- & Ha).
        rewrite Forall_forall in F. apply axis_position_lt. auto. }
      split.
      * destruct (Nat.eqb_spec (length q) rank) as [L|]; [|discriminate]. cbn [guard obind].
        destruct (Nat.eqb_spec (length (nodup Nat.eq_dec q)) (length q)) as [N|]; [|discriminate]. cbn [guard obind].
        intros H. injection H as <-. split; [auto|]. split; [auto|]. split; [now apply nodup_length_iff|auto].
      * intros ((_ & ->) & L & N & _). fold q in L, N |- *. rewrite (proj2 (Nat.eqb_eq _ _) L). cbn [guard obind].
        rewrite (proj2 (Nat.eqb_eq _ _) (proj2 (nodup_length_iff q) N)). reflexivity.
    + split; [discriminate|]. intros ((F & ->) & _). rewrite (proj2 (omap_normalize _ _ _) (conj F eq_refl)) in E. discriminate.
  - cbn [obind]. pose proof (rev_seq_permutation rank) as (L & N & F). rewrite (proj2 (Nat.eqb_eq _ _) L). cbn [guard obind].
    rewrite (proj2 (Nat.eqb_eq _ _) (proj2 (nodup_length_iff _) N)). cbn [guard obind].
    split; [intros H; injection H as <-; split; auto using rev_seq_permutation|intros (-> & _); reflexivity].
Qed.

Lemma enumerate_nth {A} (l : list A) i a : nth_error (enumerate l) i = Some a <-> fst a = i /\ nth_error l i = Some (snd a).
Proof.
  unfold enumerate. destruct a as (j, a). cbn [fst snd].
  enough (G : forall s, nth_error (combine (seq s (length l)) l) i = Some (j, a) <-> j = s + i /\ nth_error l i = Some a).
  { rewrite (G 0). cbn. intuition. }
  revert i. induction l as [|b l IH]; intros i s; cbn.
  - destruct i; cbn; split; intros H; try discriminate; destruct H; discriminate.
  - destruct i as [|i]; cbn.
    + split; [intros H; injection H as <- <-; split; [lia|auto]|intros (-> & H); injection H as <-; do 2 f_equal; lia].
    + rewrite IH. split; intros (? & ?); split; auto; lia.
Qed.
Lemma enumerate_snd {A} (l : list A) : map snd (enumerate l) = l.
Proof.
  unfold enumerate. enough (G : forall s, map snd (combine (seq s (length l)) l) = l) by apply G.
  induction l as [|b l IH]; intros s; cbn; auto. now rewrite IH.
Qed.
Lemma enumerate_in {A} (l : list A) d i a : In (i, a) (enumerate l) <-> i < length l /\ nth i l d = a.
Proof.
  split.
  - intros H. apply In_nth_error in H. destruct H as (k & H). apply enumerate_nth in H. cbn in H. destruct H as (-> & H).
    split; [apply nth_error_Some; congruence|]. now apply nth_error_nth.
  - intros (L & <-). apply (nth_error_In _ i). apply enumerate_nth. cbn. split; auto. now apply nth_error_nth'.
Qed.
Lemma enumerate_length {A} (l : list A) : length (enumerate l) = length l.
Proof. unfold enumerate. rewrite combine_length, seq_length. lia. Qed.

Lemma inv_perm_ok p n : permutation_of n p -> exists inv,
  for_each (enumerate p) (fun '(i, p) inv => aset inv p i) (repeat 0 (length p)) = Some inv /\
  length inv = n /\ (forall j, j < n -> nth (nth j p 0) inv 0 = j) /\
  (forall q, q < n -> nth q inv 0 < n /\ nth (nth q inv 0) p 0 = q).
Proof.
  intros (L & N & F).
  destruct (for_each_rule (fun done inv => length inv = n /\ forall i q, In (i, q) done -> nth q inv 0 = i)
    (fun '(i, p) inv => aset inv p i) (enumerate p) (repeat 0 (length p))) as (inv & E & Li & H).
  - split; [now rewrite repeat_length|intros ? ? []].
  - intros done (i, q) rest s Es (Ls & H). assert (Hq : In (i, q) (enumerate p)) by (rewrite Es; apply in_elt).
    assert (q < n).
    { rewrite Forall_forall in F. apply F. rewrite <- (enumerate_snd p). apply in_map_iff. now exists (i, q). }
    rewrite aset_put by lia. eexists. split; [reflexivity|]. split; [rewrite put_length; lia|].
    intros i' q' Hi. rewrite put_nth by lia. apply in_app_or in Hi. destruct Hi as [Hi|[Hi|[]]].
    + destruct (Nat.eqb_spec q' q) as [->|]; [|now apply H]. exfalso.
      pose proof (enumerate_snd p) as Ep. rewrite Es, map_app in Ep. cbn in Ep. rewrite <- Ep in N.
      apply NoDup_remove_2 in N. apply N. apply in_or_app. left. apply in_map_iff. now exists (i', q).
    + injection Hi as <- <-. now rewrite Nat.eqb_refl.
  - exists inv. split; auto. split; auto.
    assert (G : forall j, j < n -> nth (nth j p 0) inv 0 = j).
    { intros j Hj. apply H. apply (enumerate_in p 0). split; [lia|reflexivity]. }
    split; auto. intros q Hq.
    assert (I : In q p).
    { apply (NoDup_length_incl N (l' := seq 0 n)); [rewrite seq_length; lia| |apply in_seq; lia].
      intros i Hi. rewrite Forall_forall in F. apply in_seq. specialize (F i Hi). lia. }
    apply (In_nth _ _ 0) in I. destruct I as (j & Hj & <-). rewrite G by lia. split; [lia|reflexivity].
Qed.
Lemma omap_seq (f : nat -> option nat) (g : nat -> nat) n : (forall i, i < n -> f i = Some (g i)) ->
  omap f (seq 0 n) = Some (map g (seq 0 n)).
Proof. intros H. apply omap_total. intros a Ha. apply in_seq in Ha. apply H. lia. Qed.
Lemma nth_map_seq (g : nat -> nat) n i : i < n -> nth i (map g (seq 0 n)) 0 = g i.
Proof. intros H. rewrite (map_nth_lt _ _ _ 0) by (now rewrite seq_length). now rewrite seq_nth. Qed.

Lemma nth_get (l : list nat) i : i < length l -> aget l i = Some (nth i l 0).
Proof. apply nth_error_nth'. Qed.
Lemma nth_getZ (l : list Z) i d : i < length l -> aget l i = Some (nth i l d).
Proof. apply nth_error_nth'. Qed.

Theorem transpose_result {T} perm (x : tensor T) p : well_formed x ->
  perm_of (length (dims x)) perm p -> permutation_of (length (dims x)) p ->
  exists y, transpose perm x = Some y /\ well_formed y /\ transposed p x y.
Proof.
  intros W Hp P. unfold transpose. rewrite (proj2 (resolve_perm_ok _ _ _) (conj Hp P)). cbn [obind].
  set (s := dims x) in *. destruct P as (L & N & F) eqn:EP. clear EP. pose proof (conj L (conj N F) : permutation_of _ _) as P'.
  rewrite omap_get by exact F. cbn [obind]. unfold transpose_index_map. rewrite omap_get by exact F. cbn [obind].
  destruct (inv_perm_ok p (length s) P') as (inv & -> & Li & G & G'). cbn [obind].
  set (g := fun oc : list nat => map (fun q => nth (nth q inv 0) oc 0) (seq 0 (length s))).
  assert (Rg : forall oc, in_range oc (pick p s) -> in_range (g oc) s).
  { intros oc R. apply in_range_nth in R. rewrite pick_length in R. destruct R as (Lo & R). apply in_range_nth. unfold g.
    split; [now rewrite map_length, seq_length|]. intros i Hi. rewrite nth_map_seq by auto.
    destruct (G' i Hi) as (B & E). specialize (R (nth i inv 0) ltac:(lia)). rewrite pick_nth in R by lia. now rewrite E in R. }
  destruct (index_map_ok (fun out_flat =>
    let* out_coords := unravel out_flat (pick p s) in
    let* in_coords := omap (fun p => let* j := aget inv p in aget out_coords j) (seq 0 (length s)) in
    ravel in_coords s) (pick p s) (fun oc => row_major (g oc) s)) as (m & -> & Lm & Hm).
  { intros oc R. rewrite unravel_row_major by auto. cbn [obind]. pose proof (in_range_length _ _ R) as Lo. rewrite pick_length in Lo.
    rewrite (omap_seq _ (fun q => nth (nth q inv 0) oc 0)).
    - cbn [obind]. apply ravel_row_major. unfold g. now rewrite map_length, seq_length.
    - intros q Hq. rewrite nth_get by lia. cbn [obind]. apply nth_get. destruct (G' q Hq). lia. }
  cbn [obind].
  assert (B : forallb (fun idx => idx <? prod s) m = true).
  { apply forallb_forall. intros i Hi. apply In_nth_error in Hi. destruct Hi as (k & Hk).
    assert (Lk : k < prod (pick p s)) by (rewrite <- Lm; apply nth_error_Some; congruence).
    destruct (unravel_ok _ _ Lk) as (oc & _ & R & <-). rewrite Hm in Hk by auto. injection Hk as <-.
    apply Nat.ltb_lt. apply row_major_lt. auto. }
  rewrite B. cbn [guard obind].
  destruct (select_ok x (pick p s) m g W Lm) as (y & E & Wy & Dy & H).
  { intros oc R. split; [now apply Hm|now apply Rg]. }
  exists y. split; auto. split; auto. split; auto. intros c R. rewrite H.
  - f_equal. apply (list_nth_ext 0); unfold g; rewrite map_length, seq_length; [symmetry; now apply in_range_length|].
    intros i Hi. rewrite nth_map_seq by auto. destruct (G' i Hi) as (B' & E'). rewrite pick_nth by lia. now rewrite E'.
  - fold s in R. apply in_range_nth in R. destruct R as (Lc & R). apply in_range_nth. rewrite !pick_length. split; auto.
    intros i Hi. rewrite !pick_nth by auto. apply R. rewrite Forall_forall in F. apply F. now apply nth_In.
Qed.
Theorem transpose_only {T} perm (x y : tensor T) : well_formed x -> transpose perm x = Some y ->
  exists p, perm_of (length (dims x)) perm p /\ permutation_of (length (dims x)) p /\ well_formed y /\ transposed p x y.
Proof.
  intros W E. pose proof E as E'. unfold transpose in E.
  destruct (resolve_perm (length (dims x)) perm) as [p|] eqn:Ep; [|discriminate].
  apply resolve_perm_ok in Ep. destruct Ep as (Hp & P). destruct (transpose_result perm x p W Hp P) as (y' & E2 & Wy & H).
  rewrite E' in E2. injection E2 as ->. exists p. auto.
Qed.

(** *** Split *)
Lemma shift_length axis o c : axis < length c -> length (shift axis o c) = length c.
Proof. intros H. unfold shift. now apply put_length. Qed.
Lemma shift_nth axis o c j : axis < length c -> nth j (shift axis o c) 0 = if j =? axis then nth j c 0 + o else nth j c 0.
Proof. intros H. unfold shift. rewrite put_nth by auto. destruct (Nat.eqb_spec j axis) as [->|]; auto. Qed.
Lemma put_put {A} i (v w : A) l : i < length l -> put i v (put i w l) = put i v l.
Proof.
  intros H. apply (list_nth_ext v); rewrite !put_length; try rewrite put_length; auto.
  intros j Hj. rewrite !put_nth; rewrite ?put_length; auto. now destruct (j =? i).
Qed.
Lemma put_same {A} i (d : A) l : i < length l -> put i (nth i l d) l = l.
Proof.
  intros H. apply (list_nth_ext d); rewrite put_length; auto.
  intros j Hj. rewrite put_nth by auto. destruct (Nat.eqb_spec j i) as [->|]; auto.
Qed.
(** Moving coordinates into a longer axis. *)
Lemma shift_range s axis sz o c : axis < length s -> o + sz <= nth axis s 0 -> in_range c (put axis sz s) ->
  in_range (shift axis o c) s.
Proof.
  intros Ha Ho R. apply in_range_nth in R. rewrite put_length in R by auto. destruct R as (L & R).
  apply in_range_nth. rewrite shift_length by lia. split; auto. intros i Hi. specialize (R i Hi).
  rewrite put_nth in R by auto. rewrite shift_nth by lia. revert R. destruct (Nat.eqb_spec i axis) as [->|]; lia.
Qed.
Lemma split_index_map_ok s axis o sz : axis < length s -> o + sz <= nth axis s 0 ->
  exists m, split_index_map s axis o (put axis sz s) = Some m /\ length m = prod (put axis sz s) /\
    forall oc, in_range oc (put axis sz s) ->
      nth_error m (row_major oc (put axis sz s)) = Some (row_major (shift axis o oc) s) /\ in_range (shift axis o oc) s.
Proof.
  intros Ha Ho. unfold split_index_map.
  destruct (index_map_ok (fun out_flat =>
    let* in_coords := unravel out_flat (put axis sz s) in
    let* c := aget in_coords axis in
    let* in_coords := aset in_coords axis (c + o) in
    ravel in_coords s) (put axis sz s) (fun oc => row_major (shift axis o oc) s)) as (m & -> & Lm & Hm).
  { intros oc R. rewrite unravel_row_major by auto. cbn [obind]. pose proof (in_range_length _ _ R) as Lo.
    rewrite put_length in Lo by auto. rewrite nth_get by lia. cbn [obind]. rewrite aset_put by lia. cbn [obind].
    apply ravel_row_major. rewrite shift_length; lia. }
  exists m. split; auto. split; auto. intros oc R. split; [auto|]. now apply (shift_range s axis sz).
Qed.

Lemma list_sum_repeat k n : list_sum (repeat k n) = n * k.
Proof. induction n as [|n IH]; cbn; auto. Qed.
Lemma infer_split_ok s a sizes n shapes : infer_split s a sizes n = Some shapes <->
  valid_axis (Z.of_nat (length s)) a /\
  exists szs, split_sizes_of (nth (axis_position (Z.of_nat (length s)) a) s 0) sizes n szs /\
    shapes = map (fun sz => put (axis_position (Z.of_nat (length s)) a) sz s) szs.
Proof.
  unfold infer_split. destruct (normalize_axis (length s) a) as [axis|] eqn:E; cbn [obind].
  2:{ split; [discriminate|]. intros (V & _). rewrite (proj2 (normalize_axis_ok _ _ _) (conj V eq_refl)) in E. discriminate. }
  apply normalize_axis_ok in E. destruct E as (V & E). rewrite <- E.
  assert (Ha : axis < length s) by (subst axis; now apply axis_position_lt).
  rewrite nth_get by auto. cbn [obind].
  assert (M : forall szs, omap (fun sz => aset s axis sz) szs = Some (map (fun sz => put axis sz s) szs)).
  { intros szs. apply omap_total. intros sz _. now apply aset_put. }
  assert (C : forall szs sh, (let* _ := guard (length szs =? n) in let* _ := guard (list_sum szs =? nth axis s 0) in
      omap (fun sz => aset s axis sz) szs) = Some sh <->
      length szs = n /\ list_sum szs = nth axis s 0 /\ sh = map (fun sz => put axis sz s) szs).
  { intros szs sh. destruct (Nat.eqb_spec (length szs) n); cbn [guard obind]; [|split; [discriminate|tauto]].
    destruct (Nat.eqb_spec (list_sum szs) (nth axis s 0)); cbn [guard obind]; [|split; [discriminate|tauto]].
    rewrite M. split; [intros H; injection H as <-; auto|intros (_ & _ & ->); auto]. }
  unfold split_sizes_of. destruct sizes as [v|].
  - destruct (existsb (fun s0 => (s0 <? 0)%Z) v) eqn:Ex; cbn [obind].
    + split; [discriminate|]. intros (_ & szs & (_ & _ & ->) & _). exfalso. apply existsb_exists in Ex.
      destruct Ex as (z & Hz & Lz). apply in_map_iff in Hz. destruct Hz as (k & <- & _). apply Z.ltb_lt in Lz. lia.
    + rewrite C. assert (Ev : v = map Z.of_nat (map Z.to_nat v)).
      { rewrite map_map. rewrite <- (map_id v) at 1. apply map_ext_in. intros z Hz.
        destruct (Z.ltb_spec z 0) as [Lz|Lz]; [|lia]. exfalso.
        assert (existsb (fun s0 => (s0 <? 0)%Z) v = true) by (apply existsb_exists; exists z; split; auto; now apply Z.ltb_lt).
        congruence. }
      split.
      * intros (L & S & ->). split; auto. exists (map Z.to_nat v). auto.
      * intros (_ & szs & (L & S & ->) & ->). rewrite map_map. erewrite map_ext; [rewrite map_id|intros; apply Nat2Z.id]. auto.
  - destruct (Nat.eqb_spec n 0) as [->|Hn]; cbn [guard negb obind]; [split; [discriminate|intros (_ & szs & (_ & _ & C' & _) & _); tauto]|].
    destruct (Nat.eqb_spec (nth axis s 0 mod n) 0) as [M0|M0]; cbn [guard obind].
    + rewrite C. rewrite repeat_length, list_sum_repeat.
      assert (Ed : n * (nth axis s 0 / n) = nth axis s 0) by (pose proof (Nat.div_mod (nth axis s 0) n Hn); lia).
      split.
      * intros (_ & _ & ->). split; auto. eexists. split; [|reflexivity]. rewrite repeat_length, list_sum_repeat. eauto.
      * intros (_ & szs & (L & S & _ & k & ->) & ->). rewrite list_sum_repeat in S. split; auto. split; auto. do 2 f_equal.
        rewrite <- S. rewrite Nat.mul_comm. symmetry. now apply Nat.div_mul.
    + split; [discriminate|]. intros (_ & szs & (L & S & _ & k & ->) & _). exfalso. rewrite list_sum_repeat in S. apply M0.
      rewrite <- S, Nat.mul_comm. now apply Nat.mod_mul.
Qed.

Lemma split_loop {T} (x : tensor T) axis : well_formed x -> axis < length (dims x) -> forall szs o acc,
  o + list_sum szs <= nth axis (dims x) 0 ->
  exists outs, for_each (map (fun sz => put axis sz (dims x)) szs) (fun out_shape (st : nat * list (list nat * list nat)) =>
    let (offset, outputs) := st in
    let* index_map := split_index_map (dims x) axis offset out_shape in
    let* d := aget out_shape axis in
    Some (offset + d, outputs ++ [(index_map, out_shape)])) (o, acc) = Some (o + list_sum szs, acc ++ outs) /\
  exists ys, omap (fun '(index_map, shape) => select shape index_map (flat x)) outs = Some ys /\
    map dims ys = map (fun sz => put axis sz (dims x)) szs /\ Forall well_formed ys /\
    forall before y after, ys = before ++ y :: after -> forall c, in_range c (dims y) ->
      elem x (shift axis (o + list_sum (map (axis_dim axis) before)) c) = elem y c.
Proof.
  intros W Ha. induction szs as [|sz szs IH]; intros o acc Ho.
  - exists []. cbn. rewrite Nat.add_0_r, app_nil_r. split; auto. exists []. repeat split; auto. intros [|? ?]; discriminate.
  - cbn [list_sum fold_right map] in *. change (fold_right Nat.add 0 szs) with (list_sum szs) in *.
    cbn [for_each]. destruct (split_index_map_ok (dims x) axis o sz Ha ltac:(lia)) as (m & -> & Lm & Hm). cbn [obind].
    rewrite nth_get by (rewrite put_length; auto). cbn [obind]. rewrite put_nth, Nat.eqb_refl by auto.
    destruct (IH (o + sz) (acc ++ [(m, put axis sz (dims x))]) ltac:(lia)) as (outs & -> & ys & Ey & Dy & Wy & Hy).
    exists ((m, put axis sz (dims x)) :: outs). rewrite <- app_assoc. split; [f_equal; f_equal; lia|].
    destruct (select_ok x _ m (shift axis o) W Lm Hm) as (y & E & W' & D & H).
    exists (y :: ys). cbn [omap]. rewrite E. cbn [obind]. rewrite Ey. cbn [obind]. split; auto. cbn [map]. rewrite D, Dy.
    split; auto. split; auto. intros before z after Eb. destruct before as [|b before]; cbn in Eb; injection Eb as <- ->.
    + intros c R. cbn. rewrite Nat.add_0_r. rewrite D in R. symmetry. now apply H.
    + intros c R. rewrite <- (Hy before z after eq_refl c R). cbn [map list_sum fold_right]. f_equal. f_equal.
      change (fold_right Nat.add 0 ?l) with (list_sum l). replace (axis_dim axis y) with sz by (unfold axis_dim; now rewrite D, put_nth, Nat.eqb_refl by auto). lia.
Qed.
Theorem split_result {T} a sizes n (x : tensor T) : well_formed x -> n <> 0 ->
  forall szs, valid_axis (Z.of_nat (length (dims x))) a ->
  split_sizes_of (nth (axis_position (Z.of_nat (length (dims x))) a) (dims x) 0) sizes n szs ->
  exists ys, split a sizes n x = Some ys /\ Forall well_formed ys /\ length ys = n /\
    map (axis_dim (axis_position (Z.of_nat (length (dims x))) a)) ys = szs /\
    concatenated (axis_position (Z.of_nat (length (dims x))) a) ys x.
Proof.
  intros W Hn szs V S. unfold split.
  rewrite (proj2 (infer_split_ok _ _ _ _ _) (conj V (ex_intro _ szs (conj S eq_refl)))). cbn [obind].
  rewrite (proj2 (normalize_axis_ok _ _ _) (conj V eq_refl)). cbn [obind]. set (axis := axis_position _ a) in *.
  assert (Ha : axis < length (dims x)) by now apply axis_position_lt.
  rewrite (proj2 (Nat.eqb_neq _ _) Hn). cbn [negb guard obind]. destruct S as (L & S & _).
  destruct (split_loop x axis W Ha szs 0 [] ltac:(lia)) as (outs & -> & ys & Ey & Dy & Wy & Hy). cbn [obind app].
  exists ys. split; auto. split; auto. split; [apply (f_equal (@length _)) in Dy; rewrite !map_length in Dy; lia|].
  assert (Ds : map (axis_dim axis) ys = szs).
  { transitivity (map (fun s => nth axis s 0) (map dims ys)); [rewrite map_map; reflexivity|]. rewrite Dy, map_map.
    rewrite <- (map_id szs) at 2. apply map_ext. intros sz. now rewrite put_nth, Nat.eqb_refl by auto. }
  split; auto. split; auto. split; [unfold axis_dim at 1; now rewrite Ds|].
  intros before y after E. assert (Iy : In (dims y) (map dims ys)) by (apply in_map; rewrite E; apply in_elt).
  rewrite Dy in Iy. apply in_map_iff in Iy. destruct Iy as (sz & Esz & _). rewrite <- Esz.
  split; [now apply put_put|]. split; [now apply put_length|]. rewrite Esz. exact (Hy before y after E).
Qed.
Theorem split_only {T} a sizes n (x : tensor T) ys : well_formed x -> split a sizes n x = Some ys ->
  n <> 0 /\ valid_axis (Z.of_nat (length (dims x))) a /\
  exists szs, split_sizes_of (nth (axis_position (Z.of_nat (length (dims x))) a) (dims x) 0) sizes n szs.
Proof.
  intros W E. unfold split in E. destruct (infer_split (dims x) a sizes n) as [shapes|] eqn:Ei; [|discriminate].
  apply infer_split_ok in Ei. destruct Ei as (V & szs & S & ->). cbn [obind] in E.
  rewrite (proj2 (normalize_axis_ok _ _ _) (conj V eq_refl)) in E. cbn [obind] in E.
  destruct (Nat.eqb_spec n 0); [discriminate|]. split; auto. split; auto. now exists szs.
Qed.
