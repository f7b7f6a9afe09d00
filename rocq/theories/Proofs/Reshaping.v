(** Flatten, Squeeze and Unsqueeze. *)
From Coq Require Import List Arith Bool ZArith Lia Sorted Permutation.
From Verif Require Import Base.Array Spec.Shapes Spec.Tensors Spec.Reshaping Model.Shapes Model.DataMovement Model.Reshaping
  Proofs.Shapes Proofs.Shapes2 Proofs.Tensors Proofs.DataMovement Proofs.DataMovement3.
Import ListNotations.
Local Open Scope nat_scope.

Lemma mem_iff k l : existsb (Nat.eqb k) l = true <-> In k l.
Proof.
  rewrite existsb_exists. split; [intros (x & I & E); apply Nat.eqb_eq in E; now subst|].
  intros I. exists k. now rewrite Nat.eqb_refl.
Qed.
Lemma mem_ext l m k : (forall i, In i l <-> In i m) -> existsb (Nat.eqb k) l = existsb (Nat.eqb k) m.
Proof. intros H. apply eq_true_iff_eq. now rewrite !mem_iff. Qed.
Lemma without_ext {A} a b (l : list A) : (forall i, In i a <-> In i b) -> forall k, without a k l = without b k l.
Proof. intros H. induction l as [|x l IH]; intros k; cbn; auto. now rewrite (mem_ext a b k H), IH. Qed.
Lemma remove_axes_without axes s : remove_axes axes s = without axes 0 s.
Proof.
  unfold remove_axes, enumerate. generalize 0. induction s as [|d s IH]; intros k; cbn [length seq combine filter map without]; auto.
  cbn [fst]. destruct (existsb (Nat.eqb k) axes); cbn [negb map snd]; now rewrite <- IH.
Qed.
Lemma distinct_iff l : distinct l = true <-> NoDup l.
Proof.
  induction l as [|a l IH]; cbn [distinct]; [split; [constructor|auto]|].
  rewrite andb_true_iff, negb_true_iff, IH. split.
  - intros (N & D). constructor; auto. rewrite <- mem_iff. now rewrite N.
  - intros D. inversion D; subst. split; auto. apply not_true_is_false. now rewrite mem_iff.
Qed.
Lemma from_shape_inv {T} s (d : list T) y : from_shape_vec s d = Some y -> y = {| dims := s; flat := d |} /\ length d = prod s.
Proof. unfold from_shape_vec. destruct (length d =? prod s) eqn:E; [|discriminate]. intros H. injection H as <-. now apply Nat.eqb_eq in E. Qed.
Lemma from_shape_some {T} s (d : list T) : length d = prod s -> from_shape_vec s d = Some {| dims := s; flat := d |}.
Proof. intros E. unfold from_shape_vec. now rewrite E, Nat.eqb_refl. Qed.

(** *** Axes of size 1 *)
Definition ones (axes : list nat) (k : nat) (s : list nat) : Prop :=
  forall j d, nth_error s j = Some d -> In (k + j) axes -> d = 1.
Lemma ones_tail axes k d s : ones axes k (d :: s) -> ones axes (S k) s.
Proof. intros H j e E I. apply (H (S j) e E). now replace (k + S j) with (S k + j) by lia. Qed.
Lemma without_prod axes s : forall k, ones axes k s -> prod (without axes k s) = prod s.
Proof.
  induction s as [|d s IH]; intros k H; cbn [without]; auto. specialize (IH (S k) (ones_tail _ _ _ _ H)).
  destruct (existsb (Nat.eqb k) axes) eqn:E.
  - apply mem_iff in E. rewrite IH. rewrite (H 0 d eq_refl) by (now rewrite Nat.add_0_r). unfold prod. cbn. lia.
  - unfold prod in *. cbn. now rewrite IH.
Qed.
Lemma without_length {A B} axes (a : list A) : forall k (b : list B), length a = length b -> length (without axes k a) = length (without axes k b).
Proof.
  induction a as [|x a IH]; intros k [|y b] L; cbn in L; try discriminate; auto. cbn [without].
  destruct (existsb (Nat.eqb k) axes); cbn; now rewrite (IH (S k) b) by lia.
Qed.
Lemma without_coords axes s : forall k c, ones axes k s -> in_range c s ->
  in_range (without axes k c) (without axes k s) /\ row_major (without axes k c) (without axes k s) = row_major c s.
Proof.
  induction s as [|d s IH]; intros k c H R; inversion R as [|x d' c' s' Lx Rc]; subst; [now split|].
  destruct (IH (S k) c' (ones_tail _ _ _ _ H) Rc) as (I & E). cbn [without].
  assert (L := in_range_length _ _ Rc). destruct (existsb (Nat.eqb k) axes) eqn:M.
  - apply mem_iff in M. assert (d = 1) by (apply (H 0 d eq_refl); now rewrite Nat.add_0_r). subst. split; auto.
    rewrite E, row_major_cons by auto. nia.
  - split; [now apply in_range_cons|]. rewrite !row_major_cons by (auto; now apply without_length). rewrite E.
    now rewrite (without_prod axes s (S k)) by (eapply ones_tail; eauto).
Qed.
Lemma ones_forall axes s : Forall (fun i => nth_error s i = Some 1) axes -> ones axes 0 s.
Proof. intros F j d E I. rewrite Forall_forall in F. cbn in I. specialize (F j I). cbn in F. congruence. Qed.
Lemma squeezed_intro {T} axes (x y : tensor T) : Forall (fun i => nth_error (dims x) i = Some 1) axes ->
  dims y = without axes 0 (dims x) -> flat y = flat x -> squeezed axes x y.
Proof.
  intros F D E. split; [|split]; auto. intros c R.
  destruct (without_coords axes (dims x) 0 c (ones_forall _ _ F) R) as (I & M).
  rewrite (elem_in x c R), elem_in by (now rewrite D). now rewrite D, M, E.
Qed.
Lemma squeezed_prod {T} axes (x : tensor T) : Forall (fun i => nth_error (dims x) i = Some 1) axes -> prod (without axes 0 (dims x)) = prod (dims x).
Proof. intros F. apply without_prod. now apply ones_forall. Qed.
Lemma all_unit_iff axes s : all_unit axes s = true <-> Forall (fun i => nth_error s i = Some 1) axes.
Proof.
  unfold all_unit. rewrite forallb_forall, Forall_forall. split; intros H i I; specialize (H i I); unfold aget in *.
  - destruct (nth_error s i); [|discriminate]. apply Nat.eqb_eq in H. now subst.
  - now rewrite H.
Qed.
Lemma unit_axes_in s k : In k (unit_axes s) <-> nth_error s k = Some 1.
Proof.
  unfold unit_axes. rewrite filter_In, in_seq, Nat.eqb_eq. split.
  - intros (L & E). rewrite (nth_error_nth' s 0) by lia. now rewrite E.
  - intros E. split; [|now apply nth_error_nth]. assert (k < length s) by (apply nth_error_Some; congruence). lia.
Qed.
Lemma without_filter axes s : forall k, (forall j d, nth_error s j = Some d -> existsb (Nat.eqb (k + j)) axes = (d =? 1)) ->
  without axes k s = filter (fun d => negb (d =? 1)) s.
Proof.
  induction s as [|d s IH]; intros k H; cbn [without filter]; auto. pose proof (H 0 d eq_refl) as E. rewrite Nat.add_0_r in E. rewrite E.
  rewrite (IH (S k)).
  - now destruct (d =? 1).
  - intros j e N. rewrite <- (H (S j) e N). f_equal. f_equal. lia.
Qed.
Lemma without_units s : without (unit_axes s) 0 s = filter (fun d => negb (d =? 1)) s.
Proof.
  apply without_filter. intros j d E. cbn. apply eq_true_iff_eq. rewrite mem_iff, unit_axes_in, E, Nat.eqb_eq.
  split; [intros H; now injection H|now intros ->].
Qed.

(** *** Axes *)
Lemma infer_axes_iff axes rank l : infer_axes axes rank = Some l <-> good_axes axes rank /\ l = positions axes rank.
Proof.
  unfold infer_axes, good_axes, positions. destruct (omap (normalize_axis rank) axes) as [q|] eqn:E; cbn [obind].
  - apply omap_normalize in E as (F & ->). destruct (distinct (map (axis_position (Z.of_nat rank)) axes)) eqn:D; cbn [guard obind].
    + apply distinct_iff in D. split; [intros H; injection H as <-; auto|now intros (_ & ->)].
    + split; [discriminate|]. intros ((_ & N) & _). apply distinct_iff in N. congruence.
  - split; [discriminate|]. intros ((F & _) & _). rewrite (proj2 (omap_normalize rank axes _) (conj F eq_refl)) in E. discriminate.
Qed.
Lemma normalize_axes_in axes rank out : machine axes rank -> normalize_axes axes (Z.of_nat rank) = Some out ->
  good_axes axes rank /\ forall i, In i out <-> In i (positions axes rank).
Proof.
  intros (R & F) E. apply normalize_axes_ok in E; [|lia|auto]. destruct E as (V & N & _ & I). split; [split; [exact V|exact N]|exact I].
Qed.
Lemma sort_in l i : In i (sort_unstable l) <-> In i l.
Proof.
  unfold sort_unstable. induction l as [|a l IH]; [reflexivity|]. cbn [fold_right].
  assert (H : forall x m, In i (insert x m) <-> x = i \/ In i m).
  { intros x m. induction m as [|y m IHm]; cbn; [tauto|]. destruct (x <=? y); cbn; [tauto|]. rewrite IHm. tauto. }
  rewrite H, IH. reflexivity.
Qed.
Lemma sort_sorted l : NoDup l -> StronglySorted lt (sort_unstable l).
Proof.
  unfold sort_unstable. induction l as [|a l IH]; intros N; cbn; [constructor|]. inversion N; subst. specialize (IH H2).
  assert (Ha : ~ In a (fold_right insert [] l)) by (fold (sort_unstable l); now rewrite sort_in).
  clear - IH Ha. induction (fold_right insert [] l) as [|y m IHm]; cbn; [repeat constructor|].
  inversion IH; subst. destruct (a <=? y) eqn:E.
  - apply Nat.leb_le in E. assert (a <> y) by (intros ->; apply Ha; now left). constructor; auto.
    constructor; [lia|]. eapply Forall_impl; [|exact H2]. cbn. intros; lia.
  - apply Nat.leb_gt in E. constructor.
    + apply IHm; auto. intros I. apply Ha. now right.
    + apply Forall_forall. intros z I. assert (In z (a :: m)).
      { clear - I. induction m as [|w m IH]; cbn in *; [tauto|]. destruct (a <=? w); cbn in *; [tauto|]. tauto. }
      destruct H; [lia|]. rewrite Forall_forall in H2. auto.
Qed.
Lemma normalize_axes_some axes rank : machine axes rank -> good_axes axes rank ->
  exists out, normalize_axes axes (Z.of_nat rank) = Some out /\ forall i, In i out <-> In i (positions axes rank).
Proof.
  intros (R & F) (V & N). exists (sort_unstable (positions axes rank)). split; [|apply sort_in].
  apply normalize_axes_ok; [lia|auto|]. split; [auto|]. split; [auto|]. split; [now apply sort_sorted|apply sort_in].
Qed.

(** *** Squeeze *)
Lemma forall_members (P : nat -> Prop) l m : (forall i, In i l <-> In i m) -> Forall P l <-> Forall P m.
Proof. intros H. rewrite !Forall_forall. split; intros F i I; apply F; now apply H. Qed.
Lemma squeeze_listed {T} attr i axes (x y : tensor T) : machine axes (length (dims x)) -> layer_axes attr i = Some axes ->
  squeeze attr i x = Some y -> good_axes axes (length (dims x)) /\ squeezed (positions axes (length (dims x))) x y /\ flat y = flat x /\ well_formed y.
Proof.
  intros M L E. unfold squeeze, squeezed_shape in E. rewrite L in E.
  destruct (normalize_axes axes (Z.of_nat (length (dims x)))) as [u|] eqn:N; [|discriminate]. cbn [obind] in E.
  destruct (normalize_axes_in _ _ _ M N) as (G & I).
  destruct (all_unit u (dims x)) eqn:A; [|discriminate]. cbn [guard obind] in E. apply all_unit_iff in A.
  apply from_shape_inv in E as (-> & W). rewrite remove_axes_without in *. repeat split; auto; try apply G.
  - now apply (forall_members _ u).
  - cbn. now apply without_ext.
  - refine (proj2 (proj2 (squeezed_intro _ x _ _ _ _))); [now apply (forall_members _ u)|cbn; now apply without_ext|reflexivity].
Qed.
Lemma squeeze_defined {T} attr i axes (x : tensor T) : well_formed x -> machine axes (length (dims x)) -> layer_axes attr i = Some axes ->
  good_axes axes (length (dims x)) -> Forall (fun k => nth_error (dims x) k = Some 1) (positions axes (length (dims x))) ->
  squeeze attr i x = Some {| dims := without (positions axes (length (dims x))) 0 (dims x); flat := flat x |}.
Proof.
  intros W M L G F. unfold squeeze, squeezed_shape. rewrite L. destruct (normalize_axes_some _ _ M G) as (u & -> & I). cbn [obind].
  rewrite (proj2 (all_unit_iff u (dims x))) by (now apply (forall_members _ _ _ I)). cbn [guard obind].
  rewrite remove_axes_without, (without_ext u _ _ I). apply from_shape_some. rewrite W. symmetry. now apply squeezed_prod.
Qed.
Lemma squeeze_all {T} attr i (x : tensor T) : well_formed x -> layer_axes attr i = None ->
  exists y, squeeze attr i x = Some y /\ squeezed (unit_axes (dims x)) x y /\ flat y = flat x.
Proof.
  intros W L. unfold squeeze, squeezed_shape. rewrite L. cbn [obind]. rewrite <- without_units.
  assert (F : Forall (fun k => nth_error (dims x) k = Some 1) (unit_axes (dims x))) by (apply Forall_forall; intros k; apply unit_axes_in).
  eexists. split; [apply from_shape_some; rewrite W; symmetry; now apply squeezed_prod|]. split; [|reflexivity]. now apply squeezed_intro.
Qed.
Lemma squeeze_announced {T} attr i (x : tensor T) s : well_formed x -> (forall l, layer_axes attr i = Some l -> machine l (length (dims x))) ->
  attr <> None \/ i <> Initializer [] -> infer_squeeze attr i (dims x) = Some s -> exists y, squeeze attr i x = Some y /\ dims y = s /\ flat y = flat x.
Proof.
  intros W M H E. assert (R : resolve_axes attr i = Some (layer_axes attr i) \/ attr = None /\ i = Computed).
  { destruct attr; [now left|]. destruct i as [|l|[|z l]|]; try (now left); try (now right); destruct H; congruence. }
  destruct R as [R|(-> & ->)]; [|discriminate]. unfold infer_squeeze in E. rewrite R in E. cbn [obind] in E.
  destruct (layer_axes attr i) as [[|a l]|] eqn:L.
  - injection E as <-. unfold squeeze, squeezed_shape. rewrite L. unfold normalize_axes.
    destruct (M _ eq_refl) as (B & _). cbn [obind]. 
    destruct (normalize_axes_some [] (length (dims x)) (M _ eq_refl)) as (u & N & I); [split; constructor|].
    change (normalize_axes [] (Z.of_nat (length (dims x))) = Some u) in N. unfold normalize_axes in N. rewrite N. cbn [obind].
    assert (u = []) by (destruct u as [|k u]; auto; destruct (proj1 (I k) (or_introl eq_refl))). subst. cbn [all_unit forallb guard obind].
    rewrite remove_axes_without. assert (Z : forall k (s : list nat), without [] k s = s) by (intros k s0; revert k; induction s0; intros; cbn; congruence).
    rewrite Z, from_shape_some by exact W. eexists; repeat split.
  - destruct (infer_axes (a :: l) (length (dims x))) as [q|] eqn:Q; [|discriminate]. cbn [obind] in E. apply infer_axes_iff in Q as (G & ->).
    destruct (all_unit _ _) eqn:A in E; [|discriminate]. cbn [guard obind] in E. apply all_unit_iff in A. injection E as <-.
    rewrite (squeeze_defined attr i (a :: l) x W (M _ eq_refl) L G A). eexists. repeat split. cbn [dims]. now rewrite remove_axes_without.
  - injection E as <-. destruct (squeeze_all attr i x W L) as (y & S & (_ & D & _) & F). exists y. rewrite D, without_units. auto.
Qed.
Lemma squeeze_empty_initializer : exists x : tensor Z, well_formed x /\
  infer_squeeze None (Initializer []) (dims x) = Some (dims x) /\
  exists y, squeeze None (Initializer []) x = Some y /\ dims y <> dims x.
Proof. exists {| dims := [1; 2]; flat := [5; 6]%Z |}. split; [reflexivity|]. split; [reflexivity|]. eexists. split; [reflexivity|discriminate]. Qed.

(** *** Unsqueeze *)
Lemma place_ok axes n : forall k rest out, place_dims true axes k n rest = Some out ->
  length out = n /\ ones axes k out /\ without axes k out = rest /\ place_dims false axes k n rest = Some out.
Proof.
  induction n as [|n IH]; intros k rest out E; cbn [place_dims] in *.
  - destruct rest; [|discriminate]. injection E as <-. repeat split. intros [|j] d; discriminate.
  - destruct (existsb (Nat.eqb k) axes) eqn:M.
    + destruct (place_dims true axes (S k) n rest) as [o|] eqn:P; [|discriminate]. injection E as <-.
      destruct (IH _ _ _ P) as (L & O & W & U). rewrite U. cbn [length without]. rewrite M. repeat split; auto.
      intros [|j] d E I; [now injection E|]. apply (O j d E). now replace (S k + j) with (k + S j) by lia.
    + destruct rest as [|d rest]; [discriminate|]. destruct (place_dims true axes (S k) n rest) as [o|] eqn:P; [|discriminate]. injection E as <-.
      destruct (IH _ _ _ P) as (L & O & W & U). rewrite U. cbn [length without]. rewrite M, W. repeat split; auto.
      intros [|j] e E I; [|apply (O j e E); now replace (S k + j) with (k + S j) by lia].
      rewrite Nat.add_0_r in I. apply mem_iff in I. congruence.
Qed.
Lemma place_some axes n : forall k rest, length (without axes k (repeat tt n)) = length rest -> exists out, place_dims true axes k n rest = Some out.
Proof.
  induction n as [|n IH]; intros k rest H; cbn [place_dims repeat without] in *.
  - destruct rest; [eauto|discriminate].
  - destruct (existsb (Nat.eqb k) axes).
    + destruct (IH (S k) rest H) as (o & ->). eexists. reflexivity.
    + destruct rest as [|d rest]; [discriminate|]. cbn in H. destruct (IH (S k) rest) as (o & ->); [lia|]. eexists. reflexivity.
Qed.
Lemma without_count axes n : forall k,
  length (without axes k (repeat tt n)) + length (filter (fun i => existsb (Nat.eqb i) axes) (seq k n)) = n.
Proof.
  induction n as [|n IH]; intros k; cbn [repeat without seq filter]; [reflexivity|].
  specialize (IH (S k)). destruct (existsb (Nat.eqb k) axes); cbn [length]; lia.
Qed.
Lemma without_axes_count axes r : NoDup axes -> Forall (fun i => i < r + length axes) axes ->
  length (without axes 0 (repeat tt (r + length axes))) = r.
Proof.
  intros N F. pose proof (without_count axes (r + length axes) 0) as C.
  assert (P : Permutation (filter (fun i => existsb (Nat.eqb i) axes) (seq 0 (r + length axes))) axes).
  { apply NoDup_Permutation; [apply NoDup_filter, seq_NoDup|auto|]. intros i. rewrite filter_In, mem_iff, in_seq.
    rewrite Forall_forall in F. split; [tauto|]. intros I. specialize (F i I). cbn in F. split; [lia|auto]. }
  apply Permutation_length in P. lia.
Qed.
Lemma position_lt rank a : valid_axis (Z.of_nat rank) a -> axis_position (Z.of_nat rank) a < rank.
Proof. unfold valid_axis, axis_position. intros H. destruct (a <? 0)%Z eqn:E; [apply Z.ltb_lt in E|apply Z.ltb_ge in E]; lia. Qed.
Lemma place_ext a b ch n : (forall i, In i a <-> In i b) -> forall k rest, place_dims ch a k n rest = place_dims ch b k n rest.
Proof.
  intros H. induction n as [|n IH]; intros k rest; cbn [place_dims]; auto. rewrite (mem_ext a b k H), IH.
  destruct (existsb _ _); auto. destruct rest; auto. now rewrite IH.
Qed.
Lemma unsqueeze_good {T} attr i axes (x : tensor T) : let r := length (dims x) + length axes in
  well_formed x -> machine axes r -> layer_axes attr i = Some axes -> good_axes axes r ->
  exists y, unsqueeze attr i x = Some y /\ infer_unsqueeze attr i (dims x) = Some (dims y) /\ length (dims y) = r /\
    flat y = flat x /\ squeezed (positions axes r) y x.
Proof.
  intros r W M L G. unfold unsqueeze, infer_unsqueeze. rewrite L. cbn [obind].
  assert (R : resolve_axes attr i = Some (Some axes)).
  { destruct attr; cbn in L |- *; [congruence|]. destruct i as [|l|[|z l]|]; cbn in *; congruence. }
  rewrite R. cbn [obind]. fold r. rewrite (proj2 (infer_axes_iff axes r _) (conj G eq_refl)).
  destruct (normalize_axes_some axes r M G) as (u & -> & I). cbn [obind]. rewrite (place_ext u (positions axes r) true r I).
  assert (Lp : length (positions axes r) = length axes) by apply map_length.
  destruct (place_some (positions axes r) r 0 (dims x)) as (o & P).
  { pose proof (without_axes_count (positions axes r) (length (dims x))) as C. rewrite Lp in C. fold r in C. apply C; [apply G|]. apply Forall_forall. intros k K.
    apply in_map_iff in K as (a & <- & Ia). apply position_lt. destruct G as (V & _). rewrite Forall_forall in V. auto. }
  rewrite P. cbn [obind]. destruct (place_ok _ _ _ _ _ P) as (Lo & O & Wo & U). rewrite U.
  assert (F : Forall (fun k => nth_error o k = Some 1) (positions axes r)).
  { apply Forall_forall. intros k K. assert (k < length o).
    { rewrite Lo. apply in_map_iff in K as (a & <- & Ia). apply position_lt. destruct G as (V & _). rewrite Forall_forall in V. auto. }
    destruct (nth_error o k) as [d|] eqn:E; [|apply nth_error_None in E; lia]. f_equal. exact (O k d E K). }
  rewrite from_shape_some.
  - eexists. split; [reflexivity|]. cbn [dims flat]. split; [reflexivity|]. split; [exact Lo|]. split; [reflexivity|].
    apply squeezed_intro; cbn [dims flat]; auto.
  - rewrite W. rewrite <- Wo. now apply without_prod.
Qed.
Lemma unsqueeze_bad {T} attr i axes (x : tensor T) : let r := length (dims x) + length axes in
  machine axes r -> layer_axes attr i = Some axes -> ~ good_axes axes r -> unsqueeze attr i x = None.
Proof.
  intros r M L G. unfold unsqueeze. rewrite L. cbn [obind]. fold r.
  destruct (normalize_axes axes (Z.of_nat r)) as [u|] eqn:N; [|reflexivity]. destruct G. exact (proj1 (normalize_axes_in _ _ _ M N)).
Qed.

(** *** Flatten *)
Lemma flatten_iff {T} raw (x y : tensor T) : well_formed x -> flatten raw x = Some y <->
  (0 <= raw <= Z.of_nat (length (dims x)))%Z /\
  y = {| dims := [prod (firstn (Z.to_nat raw) (dims x)); prod (skipn (Z.to_nat raw) (dims x))]; flat := flat x |}.
Proof.
  intros W. unfold flatten, onnx_flatten. destruct (0 <=? raw)%Z eqn:E; [apply Z.leb_le in E|apply Z.leb_gt in E]; cbn [guard obind].
  2: { split; [discriminate|]. intros (? & _). lia. }
  destruct (length (dims x) <? Z.to_nat raw) eqn:L; [apply Nat.ltb_lt in L|apply Nat.ltb_ge in L].
  { split; [discriminate|]. intros (? & _). lia. }
  cbn [obind]. rewrite from_shape_some.
  - split; [intros H; injection H as <-; split; [lia|reflexivity]|now intros (_ & ->)].
  - rewrite W. rewrite <- (firstn_skipn (Z.to_nat raw) (dims x)) at 1. unfold prod. rewrite fold_right_app. cbn [fold_right].
    rewrite Nat.mul_1_r. generalize (firstn (Z.to_nat raw) (dims x)). intros l. induction l as [|a l IH]; cbn; lia.
Qed.
Lemma flatten_meaning {T} axis (x : tensor T) : axis <= length (dims x) ->
  flattened axis x {| dims := [prod (firstn axis (dims x)); prod (skipn axis (dims x))]; flat := flat x |}.
Proof.
  intros L. split; [reflexivity|]. intros a b A B. pose proof (in_range_length _ _ A) as La. pose proof (in_range_length _ _ B) as Lb.
  assert (R : in_range (a ++ b) (dims x)).
  { rewrite <- (firstn_skipn axis (dims x)). now apply in_range_app. }
  rewrite (elem_in x _ R). rewrite elem_in.
  - cbn [dims flat]. f_equal. rewrite <- (firstn_skipn axis (dims x)) at 5. rewrite row_major_app by auto.
    unfold row_major at 1. cbn. lia.
  - cbn [dims]. repeat constructor; now apply row_major_lt.
Qed.
Lemma infer_flatten_iff s raw out : infer_flatten s raw = Some out <->
  (- Z.of_nat (length s) <= raw <= Z.of_nat (length s))%Z /\
  let axis := Z.to_nat (from_end (length s) raw) in out = [prod (firstn axis s); prod (skipn axis s)].
Proof.
  unfold infer_flatten, from_end. destruct (raw <? - Z.of_nat (length s))%Z eqn:A; [apply Z.ltb_lt in A; cbn; split; [discriminate|lia]|].
  destruct (Z.of_nat (length s) <? raw)%Z eqn:B; [apply Z.ltb_lt in B; cbn; split; [discriminate|lia]|].
  apply Z.ltb_ge in A, B. cbn [orb negb guard obind]. cbv zeta. split; [intros [= <-]; split; [lia|reflexivity]|intros (_ & ->); reflexivity].
Qed.
Lemma flatten_announced {T} raw (x y : tensor T) : well_formed x -> flatten raw x = Some y -> infer_flatten (dims x) raw = Some (dims y).
Proof.
  intros W E. apply flatten_iff in E as (B & ->); auto. unfold infer_flatten.
  rewrite (proj2 (Z.ltb_ge _ _)), (proj2 (Z.ltb_ge _ _)), (proj2 (Z.ltb_ge raw 0)) by lia. reflexivity.
Qed.
