(** Gather and GatherElements. *)
From Coq Require Import List Arith Bool ZArith Lia.
From Verif Require Import Base.Array Spec.Shapes Spec.Tensors Model.Shapes Model.DataMovement Proofs.Shapes Proofs.Tensors Proofs.DataMovement Proofs.DataMovement2 Proofs.DataMovement3 Proofs.DataMovement4 Proofs.DataMovement5.
Import ListNotations.
Local Open Scope list_scope.

Lemma position_lt d z : valid_index d z -> position d z < d.
Proof. unfold valid_index, position, from_end. destruct (Z.ltb_spec z 0); lia. Qed.

(** *** Gather *)
Lemma append_loop {A B} (test : A -> bool) (f : A -> list B) : forall xs acc,
  for_each xs (fun x acc => if test x then None else Some (acc ++ f x)) acc =
  if existsb test xs then None else Some (acc ++ concat (map f xs)).
Proof.
  induction xs as [|x xs IH]; intros acc; cbn [for_each existsb map concat]; [now rewrite app_nil_r|].
  destruct (test x); cbn [obind orb]; auto. rewrite IH. destruct (existsb test xs); auto. now rewrite app_assoc.
Qed.
Lemma append_seq {B} (f : nat -> list B) : forall xs acc,
  for_in xs (fun x acc => Some (acc ++ f x)) acc = Some (acc ++ concat (map f xs)).
Proof.
  induction xs as [|x xs IH]; intros acc; cbn [for_in map concat obind]; [now rewrite app_nil_r|].
  rewrite IH. now rewrite app_assoc.
Qed.
Lemma for_each_ext {A S} (f g : A -> S -> option S) xs : (forall x s, In x xs -> f x s = g x s) -> forall s, for_each xs f s = for_each xs g s.
Proof.
  induction xs as [|x xs IH]; intros H s; cbn; auto. rewrite H by (left; auto). destruct (g x s); cbn; auto.
  apply IH. intros; apply H; right; auto.
Qed.
Lemma for_in_ext {S} (f g : nat -> S -> option S) xs : (forall x s, In x xs -> f x s = g x s) -> forall s, for_in xs f s = for_in xs g s.
Proof.
  induction xs as [|x xs IH]; intros H s; cbn; auto. rewrite H by (left; auto). destruct (g x s); cbn; auto.
  apply IH. intros; apply H; right; auto.
Qed.
Definition out_of_range (d : nat) (z : Z) : bool :=
  let n := (if z <? 0 then z + Z.of_nat d else z)%Z in ((n <? 0) || (Z.of_nat d <=? n))%Z.
Lemma out_of_range_iff d z : out_of_range d z = false <-> valid_index d z.
Proof.
  unfold out_of_range, valid_index. cbv zeta. rewrite orb_false_iff, Z.ltb_ge, Z.leb_gt. destruct (Z.ltb_spec z 0); lia.
Qed.
Lemma chunk_bound o n p d b : o < n -> p < d -> o * (d * b) + p * b + b <= n * (d * b).
Proof.
  intros Ho Hp. assert (H1 : S o * (d * b) <= n * (d * b)) by (apply Nat.mul_le_mono_r; lia).
  assert (H2 : S p * b <= d * b) by (apply Nat.mul_le_mono_r; lia). lia.
Qed.
Section Gather.
Context {T : Type}.
Variables (axis : nat) (idx : tensor Z) (x : tensor T).
Hypothesis (Wx : well_formed x) (Wi : well_formed idx) (Ha : axis < length (dims x)).
Let A := firstn axis (dims x).
Let B := skipn (S axis) (dims x).
Let d := axis_dim axis x.
Let out := A ++ dims idx ++ B.
Let chunk o z := firstn (prod B) (skipn (o * (d * prod B) + position d z * prod B) (flat x)).
Lemma gather_apply_eq : gather_apply axis (flat idx) out x =
  if (negb (prod A =? 0)) && existsb (out_of_range d) (flat idx) then None
  else from_shape_vec out (concat (map (fun o => concat (map (chunk o) (flat idx))) (seq 0 (prod A)))).
Proof.
  unfold gather_apply. rewrite (proj2 (Nat.leb_gt _ _) Ha). cbn [obind]. rewrite nth_get by auto. cbn [obind].
  change (nth axis (dims x) 0) with d. fold A.
  assert (Es : (if axis + 1 <? length (dims x) then prod (skipn (axis + 1) (dims x)) else 1) = prod B).
  { replace (axis + 1) with (S axis) by lia. fold B. destruct (Nat.ltb_spec (S axis) (length (dims x))); auto.
    unfold B. rewrite skipn_all2 by lia. reflexivity. }
  rewrite Es. unfold well_formed in *. rewrite Wi. unfold out. rewrite !prod_app.
  replace (prod A * prod (dims idx) * prod B) with (prod A * (prod (dims idx) * prod B)) by lia. rewrite Nat.eqb_refl. cbn [guard obind].
  assert (Dx : length (flat x) = prod A * (d * prod B)).
  { rewrite Wx. rewrite (split_at (dims x) axis Ha). now rewrite prod_app, prod_cons. }
  rewrite (for_in_ext _ (fun o acc => if existsb (out_of_range d) (flat idx) then None else Some (acc ++ concat (map (chunk o) (flat idx))))).
  2:{ intros o acc Ho. apply in_seq in Ho. rewrite <- append_loop. apply for_each_ext. intros z acc' Hz.
      fold (out_of_range d z). destruct (out_of_range d z) eqn:V; [reflexivity|].
      pose proof (proj1 (out_of_range_iff d z) V) as V'. pose proof (position_lt d z V') as Lp.
      change (Z.to_nat (if (z <? 0)%Z then (z + Z.of_nat d)%Z else z)) with (position d z).
      rewrite (proj2 (Nat.leb_le _ _)); [reflexivity|]. rewrite Dx. apply chunk_bound; lia. }
  destruct (existsb (out_of_range d) (flat idx)) eqn:V.
  - rewrite andb_true_r. destruct (Nat.eqb_spec (prod A) 0) as [->|N]; [reflexivity|]. cbn [negb].
    destruct (prod A) as [|n]; [contradiction|]. reflexivity.
  - rewrite andb_false_r. rewrite append_seq. reflexivity.
Qed.
Lemma gather_apply_ok : Forall (valid_index d) (flat idx) ->
  exists y, gather_apply axis (flat idx) out x = Some y /\ well_formed y /\ gathered axis idx x y.
Proof.
  intros V. rewrite Forall_forall in V. rewrite gather_apply_eq.
  assert (E0 : existsb (out_of_range d) (flat idx) = false).
  { destruct (existsb _ _) eqn:E; auto. apply existsb_exists in E. destruct E as (z & Hz & E).
    rewrite (proj2 (out_of_range_iff d z)) in E by auto. discriminate. }
  rewrite E0, andb_false_r. unfold well_formed in *.
  assert (Dx : length (flat x) = prod A * (d * prod B)).
  { rewrite Wx. rewrite (split_at (dims x) axis Ha). now rewrite prod_app, prod_cons. }
  assert (Lc : forall o z, o < prod A -> In z (flat idx) -> length (chunk o z) = prod B).
  { intros o z Ho Hz. apply chunk_length. pose proof (position_lt d z (V z Hz)). rewrite Dx. apply chunk_bound; auto. }
  assert (Ls : forall o l, o < prod A -> incl l (flat idx) -> list_sum (map (fun z => length (chunk o z)) l) = length l * prod B).
  { intros o l Ho Hl. rewrite (map_ext_in _ (fun _ => 1 * prod B)) by (intros z Hz; rewrite Lc; auto; lia).
    rewrite list_sum_mul. f_equal. clear. induction l; cbn; auto. }
  assert (Lo : forall o, o < prod A -> length (concat (map (chunk o) (flat idx))) = prod (dims idx) * prod B).
  { intros o Ho. rewrite concat_length, Ls by (auto; apply incl_refl). now rewrite Wi. }
  set (data := concat (map (fun o => concat (map (chunk o) (flat idx))) (seq 0 (prod A)))).
  assert (Ld : length data = prod out).
  { unfold data. rewrite (concat_uniform_length _ _ _ Lo). unfold out. now rewrite !prod_app. }
  unfold from_shape_vec. rewrite (proj2 (Nat.eqb_eq _ _) Ld). eexists. split; [reflexivity|]. split; [exact Ld|].
  split; [reflexivity|]. fold A B. fold d. intros a i b z Ra Rb Ez. pose proof (elem_some _ _ _ Ez) as Ri.
  rewrite elem_in in Ez by exact Ri.
  pose proof (in_range_length _ _ Ra) as La. pose proof (in_range_length _ _ Rb) as Lb. pose proof (in_range_length _ _ Ri) as Li.
  assert (Ro : in_range (a ++ i ++ b) out) by (unfold out; rewrite !in_range_app by auto; auto).
  pose proof (nth_error_In _ _ Ez) as Hz. pose proof (position_lt d z (V z Hz)) as Lp.
  assert (Dd : dims x = A ++ d :: B) by (apply split_at; auto).
  assert (Rx : in_range (a ++ position d z :: b) (dims x)).
  { rewrite Dd. rewrite in_range_app by auto. split; auto. apply in_range_cons. auto. }
  rewrite (elem_in x _ Rx). rewrite (elem_in {| dims := out; flat := data |} _ Ro). cbn [dims flat]. rewrite Dd. unfold out.
  rewrite !row_major_app by (auto; rewrite ?app_length; cbn [length]; lia). rewrite row_major_cons by auto. rewrite prod_cons, prod_app.
  pose proof (row_major_lt _ _ Ra) as Pa. pose proof (row_major_lt _ _ Rb) as Pb. pose proof (row_major_lt _ _ Ri) as Pi.
  unfold data. rewrite (concat_uniform _ (prod (dims idx) * prod B)) by (auto; nia).
  destruct (nth_error_split _ _ Ez) as (before & after & E & Lbf). rewrite E.
  replace (row_major i (dims idx) * prod B + row_major b B)
    with (list_sum (map (fun z => length (chunk (row_major a A) z)) before) + row_major b B).
  2:{ rewrite Ls; [now rewrite Lbf|auto|]. intros w Hw. rewrite E. apply in_or_app. auto. }
  rewrite concat_parts by (rewrite Lc; auto). unfold chunk. rewrite nth_error_chunk by auto. f_equal. lia.
Qed.
End Gather.
Lemma infer_gather_ok s si a : valid_axis (Z.of_nat (length s)) a ->
  let axis := axis_position (Z.of_nat (length s)) a in
  infer_gather s si a = Some (firstn axis s ++ si ++ skipn (S axis) s) /\
  gather_axis (firstn axis s ++ si ++ skipn (S axis) s) (length si) a = Some axis.
Proof.
  intros V axis. pose proof (axis_position_lt _ _ V) as Ha. fold axis in Ha. split.
  - unfold infer_gather. destruct s as [|s0 s']; [cbn in Ha; lia|]. set (s := s0 :: s') in *. cbv iota.
    assert (Ea : (if (a <? 0)%Z then (Z.of_nat (length s) + a)%Z else a) = Z.of_nat axis).
    { unfold axis, axis_position, valid_axis in *. destruct (Z.ltb_spec a 0); lia. }
    cbv zeta. fold s. rewrite Ea. rewrite (proj2 (Z.ltb_ge _ _)) by lia. rewrite (proj2 (Z.leb_gt _ _)) by lia. cbn [orb].
    rewrite Nat2Z.id. unfold promote. replace (S axis - length s) with 0 by lia. cbn [repeat]. now rewrite app_nil_r.
  - unfold gather_axis. assert (L : length (firstn axis s ++ si ++ skipn (S axis) s) = length si + (length s - 1)).
    { rewrite !app_length, firstn_length, skipn_length. lia. }
    rewrite L. rewrite (proj2 (Nat.leb_le _ _)) by lia. cbn [guard obind].
    replace (length si + (length s - 1) + 1 - length si) with (length s) by lia.
    unfold axis, axis_position, valid_axis in *. destruct (Z.ltb_spec a 0).
    + rewrite (proj2 (Z.ltb_ge _ _)) by lia. do 2 f_equal. lia.
    + rewrite (proj2 (Z.leb_gt _ _)) by lia. reflexivity.
Qed.
Theorem gather_result {T} a (idx : tensor Z) (x : tensor T) : well_formed x -> well_formed idx ->
  valid_axis (Z.of_nat (length (dims x))) a ->
  let axis := axis_position (Z.of_nat (length (dims x))) a in
  Forall (valid_index (axis_dim axis x)) (flat idx) ->
  exists y, gather a idx x = Some y /\ well_formed y /\ gathered axis idx x y.
Proof.
  intros Wx Wi V axis F. destruct (infer_gather_ok (dims x) (dims idx) a V) as (E1 & E2). unfold gather. rewrite E1. cbn [obind].
  rewrite E2. cbn [obind]. apply gather_apply_ok; auto. now apply axis_position_lt.
Qed.
Theorem gather_only {T} a (idx : tensor Z) (x y : tensor T) : well_formed x -> well_formed idx ->
  valid_axis (Z.of_nat (length (dims x))) a ->
  let axis := axis_position (Z.of_nat (length (dims x))) a in
  Forall (lt 0) (firstn axis (dims x)) -> gather a idx x = Some y -> Forall (valid_index (axis_dim axis x)) (flat idx).
Proof.
  intros Wx Wi V axis P E. destruct (infer_gather_ok (dims x) (dims idx) a V) as (E1 & E2). unfold gather in E. rewrite E1 in E.
  cbn [obind] in E. rewrite E2 in E. cbn [obind] in E. rewrite gather_apply_eq in E by (auto; now apply axis_position_lt).
  fold axis in E. assert (N : prod (firstn axis (dims x)) <> 0).
  { clear - P. induction (firstn axis (dims x)) as [|d l IH]; [discriminate|]. inversion P; subst. rewrite prod_cons. specialize (IH H2). nia. }
  rewrite (proj2 (Nat.eqb_neq _ _) N) in E. cbn [negb andb] in E.
  destruct (existsb (out_of_range (axis_dim axis x)) (flat idx)) eqn:X; [discriminate|].
  apply Forall_forall. intros z Hz. apply out_of_range_iff. destruct (out_of_range (axis_dim axis x) z) eqn:O; auto.
  assert (Y : existsb (out_of_range (axis_dim axis x)) (flat idx) = true) by (apply existsb_exists; eauto). congruence.
Qed.

(** *** GatherElements *)
Lemma skipn_cons (l : list nat) k : k < length l -> skipn k l = nth k l 0 :: skipn (S k) l.
Proof.
  revert l. induction k as [|k IH]; intros [|a l] H; cbn in H; try lia; [reflexivity|]. cbn [skipn nth]. rewrite IH by lia. reflexivity.
Qed.
Lemma firstn_snoc (l : list nat) k : k < length l -> firstn (S k) l = firstn k l ++ [nth k l 0].
Proof.
  revert l. induction k as [|k IH]; intros [|a l] H; cbn in H; try lia; [reflexivity|]. cbn [firstn nth app]. f_equal. rewrite <- IH by lia. reflexivity.
Qed.
Lemma strides_ok s : strides s = Some (map (fun k => prod (skipn (S k) s)) (seq 0 (length s))).
Proof.
  set (n := length s). unfold strides. fold n.
  match goal with |- for_in _ ?f _ = _ => set (F := f) end.
  destruct (for_list (fun j (st : list nat) => length st = n /\ forall k, n - 1 - j <= k < n -> nth k st 0 = prod (skipn (S k) s))
    F (rev (seq 0 (n - 1))) (repeat 1 n)) as (st & E & L & H).
  - split; [apply repeat_length|]. intros k Hk. replace k with (n - 1) by lia. rewrite skipn_all2 by (fold n; lia).
    rewrite (nth_indep _ 0 1) by (rewrite repeat_length; lia). apply nth_repeat.
  - intros j i st Hj (L & H). assert (Lj : j < n - 1).
    { assert (j < length (rev (seq 0 (n - 1)))) by (apply nth_error_Some; congruence). rewrite rev_length, seq_length in *. auto. }
    assert (Ei : i = n - 2 - j).
    { apply (nth_error_nth _ _ 0) in Hj. rewrite rev_nth in Hj by (rewrite seq_length; lia). rewrite seq_length, seq_nth in Hj by lia. lia. }
    unfold F. rewrite nth_get by lia. cbn [obind]. rewrite nth_get by (fold n; lia). cbn [obind]. rewrite aset_put by lia.
    eexists. split; [reflexivity|]. split; [rewrite put_length; lia|]. intros k Hk. rewrite put_nth by lia.
    destruct (Nat.eqb_spec k i) as [->|N].
    + rewrite H by lia. rewrite (skipn_cons s (S i)) by (fold n; lia). rewrite prod_cons. replace (i + 1) with (S i) by lia. lia.
    + apply H. lia.
  - rewrite E. f_equal. rewrite rev_length, seq_length in H. apply (list_nth_ext 0); rewrite ?map_length, ?seq_length; auto.
    intros k Hk. rewrite nth_map_seq by lia. apply H. lia.
Qed.
Lemma in_range_pos c s : in_range c s -> forall k, 0 < prod (skipn k s).
Proof.
  intros R k. assert (F : Forall (lt 0) s) by (clear k; induction R; constructor; auto; lia).
  assert (F' : Forall (lt 0) (skipn k s)).
  { clear - F. revert s F. induction k as [|k IH]; intros s F; auto. destruct F; cbn; auto. }
  clear - F'. induction F' as [|d l P F IH]; [cbn; lia|]. rewrite prod_cons. nia.
Qed.
Lemma in_range_skipn c s k : in_range c s -> in_range (skipn k c) (skipn k s).
Proof. intros R. revert c s R. induction k as [|k IH]; intros c s R; auto. inversion R; subst; cbn; auto. Qed.
Lemma row_major_loop s I c c' axis n : length s = length I -> in_range c I -> axis < length s -> c' = put axis n c ->
  for_in (seq 0 (length s)) (fun dim (st : nat * nat) =>
      let (remaining, data_flat_idx) := st in
      let* is := aget (map (fun k => prod (skipn (S k) I)) (seq 0 (length s))) dim in
      let* ds := aget (map (fun k => prod (skipn (S k) s)) (seq 0 (length s))) dim in
      let* _ := guard (negb (is =? 0)) in
      Some (remaining mod is, data_flat_idx + (if dim =? axis then n else remaining / is) * ds)) (row_major c I, 0)
  = Some (0, row_major c' s).
Proof.
  intros L R Ha Ec. pose proof (in_range_length _ _ R) as Lc.
  assert (Lc' : length c' = length s) by (rewrite Ec, put_length; lia).
  match goal with |- for_in _ ?f _ = _ => set (F := f) end.
  destruct (for_seq (fun j (st : nat * nat) => st = (row_major (skipn j c) (skipn j I), row_major (firstn j c') (firstn j s) * prod (skipn j s)))
    F 0 (length s) (row_major c I, 0)) as (st & E & ->).
  - reflexivity.
  - intros j st Hj ->. unfold F. rewrite !nth_get by (rewrite map_length, seq_length; lia). cbn [obind]. rewrite !nth_map_seq by lia.
    pose proof (in_range_pos _ _ R (S j)) as Pp. rewrite (proj2 (Nat.eqb_neq (prod (skipn (S j) I)) 0)) by lia. cbn [guard negb obind].
    assert (Er : row_major (skipn j c) (skipn j I) = nth j c 0 * prod (skipn (S j) I) + row_major (skipn (S j) c) (skipn (S j) I)).
    { rewrite (skipn_cons c), (skipn_cons I) by lia. apply row_major_cons. rewrite !skipn_length. lia. }
    pose proof (row_major_lt _ _ (in_range_skipn _ _ (S j) R)) as Lt.
    rewrite Er. rewrite Nat.div_add_l by lia. rewrite (Nat.div_small _ _ Lt). rewrite (Nat.add_comm (_ * _)), Nat.mod_add, Nat.mod_small by lia.
    eexists. split; [reflexivity|]. f_equal. rewrite (firstn_snoc c'), (firstn_snoc s) by lia.
    rewrite row_major_app by (rewrite ?firstn_length; cbn [length]; lia). rewrite (skipn_cons s j) by lia. rewrite prod_cons.
    replace (row_major [nth j c' 0] [nth j s 0]) with (nth j c' 0) by reflexivity.
    replace (prod [nth j s 0]) with (nth j s 0) by (cbn; lia).
    replace (if j =? axis then n else nth j c 0 + 0) with (nth j c' 0).
    + nia.
    + rewrite Ec, put_nth by lia. destruct (j =? axis); lia.
  - cbn [Nat.add] in E. rewrite E. rewrite (skipn_all2 c), (skipn_all2 I), (skipn_all s), (firstn_all2 c'), (firstn_all2 s) by lia.
    cbn [prod fold_right]. do 2 f_equal. lia.
Qed.
Lemma omap_enumerate {A B} (d : A) (F : nat * A -> option B) l : omap F (enumerate l) = omap (fun i => F (i, nth i l d)) (seq 0 (length l)).
Proof.
  unfold enumerate. enough (G : forall k (pre : list A), length pre = k ->
    omap F (combine (seq k (length l)) l) = omap (fun i => F (i, nth i (pre ++ l) d)) (seq k (length l))) by (apply (G 0 []); auto).
  induction l as [|a l IH]; intros k pre L; auto. cbn [length seq combine omap].
  rewrite app_nth2 by lia. rewrite L, Nat.sub_diag. cbn [nth]. destruct (F (k, a)); cbn [obind]; auto.
  rewrite (IH (S k) (pre ++ [a])) by (rewrite app_length; cbn; lia).
  replace ((pre ++ [a]) ++ l) with (pre ++ a :: l) by now rewrite <- app_assoc. reflexivity.
Qed.
Definition ge_bad (d : nat) (z : Z) : bool := ((z <? - Z.of_nat d) || (Z.of_nat d <=? z))%Z.
Lemma ge_bad_iff d z : ge_bad d z = false <-> valid_index d z.
Proof. unfold ge_bad, valid_index. rewrite orb_false_iff, Z.ltb_ge, Z.leb_gt. lia. Qed.
Theorem gather_elements_result {T} a (idx : tensor Z) (x : tensor T) : well_formed x -> well_formed idx ->
  valid_axis (Z.of_nat (length (dims x))) a -> length (dims idx) = length (dims x) ->
  let axis := axis_position (Z.of_nat (length (dims x))) a in
  (forall k, k < length (dims x) -> k <> axis -> nth k (dims idx) 0 <= nth k (dims x) 0) ->
  Forall (valid_index (axis_dim axis x)) (flat idx) ->
  exists y, gather_elements a idx x = Some y /\ well_formed y /\ elements_gathered axis idx x y.
Proof.
  intros Wx Wi V L axis Le F. pose proof (axis_position_lt _ _ V) as Ha. fold axis in Ha.
  unfold gather_elements. rewrite (proj2 (normalize_axis_ok _ _ axis)) by (split; auto). cbn [obind].
  unfold gather_elements_map. set (s := dims x) in *. set (I := dims idx) in *.
  rewrite (proj2 (Nat.eqb_eq _ _) L). cbn [guard obind]. rewrite (proj2 (Nat.eqb_neq (length s) 0)) by lia. cbn [guard negb obind].
  rewrite strides_ok. cbn [obind]. rewrite strides_ok. cbn [obind]. rewrite nth_get by auto. cbn [obind]. rewrite L.
  change (nth axis s 0) with (axis_dim axis x). set (d := axis_dim axis x) in *.
  unfold well_formed in Wi. fold I in Wi. rewrite firstn_all2 by (rewrite enumerate_length; lia).
  rewrite (omap_enumerate 0%Z), Wi.
  match goal with |- context [omap ?f (seq 0 (prod I))] => set (G := f) end.
  set (val := fun oc => nth (row_major oc I) (flat idx) 0%Z).
  assert (Hv : forall oc, in_range oc I -> valid_index d (val oc) /\ elem idx oc = Some (val oc)).
  { intros oc R. pose proof (row_major_lt _ _ R) as Lt. split.
    - rewrite Forall_forall in F. apply F. unfold val. apply nth_In. lia.
    - rewrite elem_in by exact R. apply nth_error_nth'. fold I. lia. }
  set (g := fun oc => put axis (position d (val oc)) oc).
  assert (Hg : forall oc, in_range oc I -> in_range (g oc) s).
  { intros oc R. pose proof (in_range_length _ _ R) as Lo. apply in_range_nth in R. destruct R as (_ & R). apply in_range_nth.
    unfold g. rewrite put_length by lia. split; [lia|]. intros i Hi. rewrite put_nth by lia. destruct (Nat.eqb_spec i axis) as [->|N].
    - apply position_lt. apply Hv. apply in_range_nth. split; [lia|]. intros; apply R; lia.
    - specialize (R i ltac:(lia)). specialize (Le i Hi N). lia. }
  destruct (index_map_ok G I (fun oc => row_major (g oc) s)) as (m & Em & Lm & Hm).
  { intros oc R. unfold G. fold (val oc). destruct (Hv oc R) as (Vz & _).
    rewrite (for_in_ext _ (fun dim (st : nat * nat) =>
      let (remaining, data_flat_idx) := st in
      let* is := aget (map (fun k => prod (skipn (S k) I)) (seq 0 (length s))) dim in
      let* ds := aget (map (fun k => prod (skipn (S k) s)) (seq 0 (length s))) dim in
      let* _ := guard (negb (is =? 0)) in
      Some (remaining mod is, data_flat_idx + (if dim =? axis then position d (val oc) else remaining / is) * ds))).
    - rewrite (row_major_loop s I oc (g oc)); auto.
    - intros k (rem & acc) _. destruct (aget (map _ _) k) as [is|]; [|reflexivity]. cbn [obind].
      destruct (aget (map _ _) k) as [ds|]; [|reflexivity]. cbn [obind]. destruct (negb (is =? 0)); [|reflexivity]. cbn [guard obind].
      destruct (k =? axis); [|reflexivity]. fold (ge_bad d (val oc)). rewrite (proj2 (ge_bad_iff _ _) Vz). reflexivity. }
  rewrite Em. cbn [obind].
  destruct (select_ok x I m g Wx Lm) as (y & E & Wy & Dy & Ey).
  { intros oc R. split; auto. }
  exists y. split; auto. split; auto. split; [exact Dy|]. intros c z Ez. pose proof (elem_some _ _ _ Ez) as R.
  rewrite Ey by exact R. destruct (Hv c R) as (_ & Ev). rewrite Ez in Ev. injection Ev as ->. reflexivity.
Qed.
Theorem gather_elements_only {T} a (idx : tensor Z) (x y : tensor T) : well_formed idx -> gather_elements a idx x = Some y ->
  let axis := axis_position (Z.of_nat (length (dims x))) a in
  valid_axis (Z.of_nat (length (dims x))) a /\ length (dims idx) = length (dims x) /\
  Forall (valid_index (axis_dim axis x)) (flat idx).
Proof.
  intros Wi E axis. unfold gather_elements in E. destruct (normalize_axis (length (dims x)) a) as [ax|] eqn:Ea; [|discriminate].
  cbn [obind] in E. apply normalize_axis_ok in Ea. destruct Ea as (V & ->). fold axis in E. split; auto.
  pose proof (axis_position_lt _ _ V) as Ha. fold axis in Ha.
  unfold gather_elements_map in E. destruct (Nat.eqb_spec (length (dims idx)) (length (dims x))) as [L|]; [|discriminate].
  split; auto. cbn [guard obind] in E. rewrite (proj2 (Nat.eqb_neq (length (dims x)) 0)) in E by lia. cbn [guard negb obind] in E.
  rewrite strides_ok in E. cbn [obind] in E. rewrite strides_ok in E. cbn [obind] in E. rewrite nth_get in E by auto. cbn [obind] in E.
  change (nth axis (dims x) 0) with (axis_dim axis x) in E. set (d := axis_dim axis x) in *.
  unfold well_formed in Wi. rewrite firstn_all2 in E by (rewrite enumerate_length; lia).
  match type of E with (let* _ := omap ?f _ in _) = _ => set (G := f) in E end.
  destruct (omap G (enumerate (flat idx))) as [m|] eqn:Em; [|discriminate]. clear E.
  apply Forall_forall. intros z Hz. apply (In_nth _ _ 0%Z) in Hz. destruct Hz as (i & Hi & Ez).
  destruct (proj2 (omap_exists G (enumerate (flat idx))) (ex_intro _ _ Em) (i, z)) as (v & Ev).
  { apply (enumerate_in _ 0%Z). split; auto. }
  unfold G in Ev. destruct (for_in _ _ _) as [st|] eqn:Ef in Ev; [|discriminate]. clear Ev G Em.
  apply ge_bad_iff. destruct (ge_bad d z) eqn:Bz; auto. exfalso.
  revert Ef. assert (S : seq 0 (length (dims x)) = seq 0 axis ++ axis :: seq (S axis) (length (dims x) - S axis)).
  { replace (length (dims x)) with (axis + S (length (dims x) - S axis)) at 1 by lia. rewrite seq_app. reflexivity. }
  match goal with |- for_in _ ?f _ = _ -> _ => set (H := f) end. rewrite S, for_in_app.
  destruct (for_in (seq 0 axis) H (i, 0)) as [(rem & acc)|]; [|discriminate]. cbn [obind for_in]. unfold H at 1.
  destruct (aget _ axis); [|discriminate]. cbn [obind]. destruct (aget _ axis); [|discriminate]. cbn [obind].
  destruct (negb _); [|discriminate]. cbn [guard obind]. rewrite Nat.eqb_refl. fold (ge_bad d z). rewrite Bz. discriminate.
Qed.
