(** Generic lemmas on tensors, coordinates and index maps. *)
From Coq Require Import List Arith Bool ZArith Lia.
From Verif Require Import Base.Array Spec.Shapes Spec.Tensors Model.Shapes Model.DataMovement Proofs.Shapes.
Import ListNotations.
Local Open Scope list_scope.

(** *** omap *)
Lemma omap_length {A B} (f : A -> option B) l : forall m, omap f l = Some m -> length m = length l.
Proof.
  induction l as [|a l IH]; cbn; intros m H; [injection H as <-; reflexivity|].
  destruct (f a) as [b|]; [|discriminate]. cbn in H. destruct (omap f l) as [bs|]; [|discriminate].
  injection H as <-. cbn. f_equal. now apply IH.
Qed.
Lemma omap_nth {A B} (f : A -> option B) l : forall m i a, omap f l = Some m -> nth_error l i = Some a ->
  f a = nth_error m i.
Proof.
  induction l as [|a l IH]; cbn; intros m i x H Hi; [destruct i; discriminate|].
  destruct (f a) as [b|] eqn:E; [|discriminate]. cbn in H. destruct (omap f l) as [bs|]; [|discriminate].
  injection H as <-. destruct i as [|i]; cbn in *; [injection Hi as <-; auto|]. now apply IH.
Qed.
Lemma omap_exists {A B} (f : A -> option B) l : (forall a, In a l -> exists b, f a = Some b) <-> exists m, omap f l = Some m.
Proof.
  induction l as [|a l IH]; cbn; [split; [exists []; auto|intros _ a []]|].
  split.
  - intros H. destruct (H a) as (b & ->); auto. destruct (proj1 IH) as (m & ->); [intros; apply H; auto|].
    cbn. eauto.
  - intros (m & H) x [->|Hx].
    + destruct (f x); [eauto|discriminate].
    + destruct (f a); [|discriminate]. cbn in H. destruct (omap f l) as [bs|] eqn:E; [|discriminate].
      apply (proj2 IH); eauto.
Qed.
Lemma omap_ext {A B} (f g : A -> option B) l : (forall a, In a l -> f a = g a) -> omap f l = omap g l.
Proof.
  induction l as [|a l IH]; cbn; intros H; auto. rewrite H by auto. rewrite IH by auto. reflexivity.
Qed.
Lemma omap_get (l p : list nat) : Forall (fun i => i < length l) p -> omap (aget l) p = Some (pick p l).
Proof.
  intros F. rewrite (omap_total _ (fun i => nth i l 0)); [reflexivity|].
  intros i Hi. rewrite Forall_forall in F. unfold aget. apply nth_error_nth'. auto.
Qed.
Lemma guard_true b : guard b = Some tt <-> b = true.
Proof. destruct b; cbn; split; intros H; auto; discriminate. Qed.

(** *** Coordinates *)
Lemma in_rangeb_iff c s : in_rangeb c s = true <-> in_range c s.
Proof.
  unfold in_rangeb, in_range. rewrite andb_true_iff, Nat.eqb_eq, forallb_forall. split.
  - intros (L & H). revert s L H. induction c as [|x c IH]; intros [|y s] L H; cbn in *; try discriminate; constructor.
    + apply Nat.ltb_lt. exact (H (x, y) (or_introl eq_refl)).
    + apply IH; [lia|]. intros p Hp. apply H. auto.
  - induction 1 as [|x y c s H F IH]; cbn; [split; auto; intros ? []|]. destruct IH as (L & IH). split; [lia|].
    intros p [<-|Hp]; [now apply Nat.ltb_lt|exact (IH p Hp)].
Qed.
Lemma elem_in {T} (t : tensor T) c : in_range c (dims t) -> elem t c = nth_error (flat t) (row_major c (dims t)).
Proof. intros H. unfold elem. now rewrite (proj2 (in_rangeb_iff _ _) H). Qed.
Lemma elem_some {T} (t : tensor T) c v : elem t c = Some v -> in_range c (dims t).
Proof. unfold elem. destruct (in_rangeb c (dims t)) eqn:E; [|discriminate]. intros _. now apply in_rangeb_iff. Qed.
Lemma elem_exists {T} (t : tensor T) c : well_formed t -> in_range c (dims t) -> exists v, elem t c = Some v.
Proof.
  intros W R. rewrite elem_in by auto. pose proof (row_major_lt _ _ R) as L. unfold well_formed in W.
  destruct (nth_error (flat t) (row_major c (dims t))) eqn:E; eauto. apply nth_error_None in E. lia.
Qed.
Lemma in_range_nth c s : in_range c s <-> length c = length s /\ forall i, i < length s -> nth i c 0 < nth i s 0.
Proof.
  split.
  - intros R. pose proof (in_range_length _ _ R) as L. split; auto.
    pose proof (arr_eta c) as A. rewrite L in A. exact (proj1 (in_range_arr _ _ _ _ _ A (arr_eta s)) R).
  - intros (L & H). pose proof (arr_eta c) as A. rewrite L in A. exact (proj2 (in_range_arr _ _ _ _ _ A (arr_eta s)) H).
Qed.
Lemma list_nth_ext {A} (d : A) (l m : list A) : length l = length m -> (forall i, i < length l -> nth i l d = nth i m d) -> l = m.
Proof. intros L H. apply (nth_ext _ _ d d); auto. Qed.
Lemma pick_length p l : length (pick p l) = length p.
Proof. apply map_length. Qed.
Lemma pick_nth p l i : i < length p -> nth i (pick p l) 0 = nth (nth i p 0) l 0.
Proof.
  intros H. unfold pick. rewrite (nth_indep _ 0 (nth 0 l 0)) by (now rewrite map_length).
  now rewrite (map_nth (fun i => nth i l 0)).
Qed.
Lemma map_nth_lt {A B} (f : A -> B) l i d d' : i < length l -> nth i (map f l) d' = f (nth i l d).
Proof. intros H. rewrite (nth_indep _ d' (f d)) by (now rewrite map_length). apply map_nth. Qed.
Lemma map2_length {A B C} (f : A -> B -> C) l m : length l = length m -> length (map2 f l m) = length l.
Proof. intros H. unfold map2. rewrite map_length, combine_length. lia. Qed.
Lemma map2_nth {A B C} (f : A -> B -> C) l m i d e h : length l = length m -> i < length l ->
  nth i (map2 f l m) h = f (nth i l d) (nth i m e).
Proof.
  intros H Hi. unfold map2. rewrite (map_nth_lt _ _ _ (d, e)) by (rewrite combine_length; lia).
  now rewrite combine_nth.
Qed.
Lemma put_length {A} i (v : A) l : i < length l -> length (put i v l) = length l.
Proof. intros H. unfold put. rewrite app_length, firstn_length. cbn [length]. rewrite skipn_length. lia. Qed.
Lemma put_nth {A} i (v d : A) l j : i < length l -> nth j (put i v l) d = if j =? i then v else nth j l d.
Proof.
  intros H. unfold put. destruct (Nat.eqb_spec j i) as [->|N].
  - rewrite app_nth2 by (rewrite firstn_length; lia). rewrite firstn_length.
    replace (i - Nat.min i (length l)) with 0 by lia. reflexivity.
  - destruct (Nat.lt_ge_cases j i) as [L|L].
    + rewrite app_nth1 by (rewrite firstn_length; lia). rewrite <- (firstn_skipn i l) at 2.
      rewrite app_nth1; auto. rewrite firstn_length. lia.
    + rewrite app_nth2 by (rewrite firstn_length; lia). rewrite firstn_length.
      destruct (j - Nat.min i (length l)) as [|k] eqn:E; [lia|]. cbn [nth]. rewrite nth_skip. f_equal. lia.
Qed.
Lemma aset_put {A} (l : list A) i v : i < length l -> aset l i v = Some (put i v l).
Proof.
  revert i. induction l as [|a l IH]; cbn [length]; intros i H; [lia|]. destruct i as [|i]; cbn [aset].
  - reflexivity.
  - rewrite IH by lia. reflexivity.
Qed.
Lemma seq_nth_error a n i : i < n -> nth_error (seq a n) i = Some (a + i).
Proof. intros H. rewrite (nth_error_nth' _ 0) by (now rewrite seq_length). f_equal. now apply seq_nth. Qed.

(** Two well-formed tensors with the same shape and the same elements are equal. *)
Lemma tensor_ext {T} (x y : tensor T) : well_formed x -> well_formed y -> dims x = dims y ->
  (forall c, in_range c (dims x) -> elem x c = elem y c) -> x = y.
Proof.
  intros Wx Wy D H. destruct x as [sx fx], y as [sy fy]. unfold well_formed in *. cbn [dims flat] in *. subst sy. f_equal.
  apply nth_error_ext'. intros i. destruct (Nat.lt_ge_cases i (prod sx)) as [L|L].
  - destruct (unravel_ok _ _ L) as (c & _ & R & E). specialize (H c R). rewrite !elem_in in H by auto. cbn [dims flat] in H.
    now rewrite E in H.
  - rewrite (proj2 (nth_error_None fx i)), (proj2 (nth_error_None fy i)) by lia. reflexivity.
Qed.

(** *** Index maps *)
Lemma unravel_row_major oc out : in_range oc out -> unravel (row_major oc out) out = Some oc.
Proof.
  intros R. destruct (ravel_unravel _ _ R) as (f & E & _ & U). rewrite ravel_row_major in E by (now apply in_range_length).
  injection E as ->. exact U.
Qed.
Lemma index_map_ok {B} (F : nat -> option B) out (h : list nat -> B) :
  (forall oc, in_range oc out -> F (row_major oc out) = Some (h oc)) ->
  exists m, omap F (seq 0 (prod out)) = Some m /\ length m = prod out /\
    forall oc, in_range oc out -> nth_error m (row_major oc out) = Some (h oc).
Proof.
  intros H. destruct (proj1 (omap_exists F (seq 0 (prod out)))) as (m & E).
  - intros i Hi. apply in_seq in Hi. destruct (unravel_ok i out ltac:(lia)) as (c & _ & R & <-). eauto.
  - exists m. split; auto. pose proof (omap_length _ _ _ E) as L. rewrite seq_length in L. split; auto.
    intros oc R. pose proof (row_major_lt _ _ R) as Lt.
    rewrite <- (omap_nth _ _ _ _ _ E (seq_nth_error 0 _ _ Lt)). cbn. auto.
Qed.
(** A list indexed row-major by a function that always succeeds is a well-formed tensor. *)
Lemma tabulate_ok {T} (F : nat -> option T) out (h : list nat -> option T) :
  (forall oc, in_range oc out -> F (row_major oc out) = h oc /\ h oc <> None) ->
  exists m, omap F (seq 0 (prod out)) = Some m /\ length m = prod out /\
    forall oc, in_range oc out -> elem {| dims := out; flat := m |} oc = h oc.
Proof.
  intros H. destruct (proj1 (omap_exists F (seq 0 (prod out)))) as (m & E).
  - intros i Hi. apply in_seq in Hi. destruct (unravel_ok i out ltac:(lia)) as (c & _ & R & <-).
    destruct (H c R) as (-> & N). destruct (h c); [eauto|congruence].
  - exists m. split; auto. pose proof (omap_length _ _ _ E) as L. rewrite seq_length in L. split; auto.
    intros oc R. pose proof (row_major_lt _ _ R) as Lt. rewrite elem_in by exact R. cbn [dims flat].
    rewrite <- (omap_nth _ _ _ _ _ E (seq_nth_error 0 _ _ Lt)). cbn. now apply H.
Qed.
Lemma select_ok {T} (x : tensor T) out m (g : list nat -> list nat) :
  well_formed x -> length m = prod out ->
  (forall oc, in_range oc out -> nth_error m (row_major oc out) = Some (row_major (g oc) (dims x)) /\ in_range (g oc) (dims x)) ->
  exists y, select out m (flat x) = Some y /\ well_formed y /\ dims y = out /\
    forall oc, in_range oc out -> elem y oc = elem x (g oc).
Proof.
  intros W L H. unfold select.
  destruct (proj1 (omap_exists (aget (flat x)) m)) as (d & E).
  - intros i Hi. apply In_nth_error in Hi. destruct Hi as (k & Hk).
    assert (k < prod out) by (rewrite <- L; apply nth_error_Some; congruence).
    destruct (unravel_ok k out) as (c & _ & R & <-); auto. destruct (H c R) as (Hc & Rc). rewrite Hk in Hc.
    injection Hc as ->. unfold aget. pose proof (row_major_lt _ _ Rc) as Lt. unfold well_formed in W.
    destruct (nth_error (flat x) (row_major (g c) (dims x))) eqn:E; eauto. apply nth_error_None in E. lia.
  - rewrite E. cbn. pose proof (omap_length _ _ _ E) as Ld. unfold from_shape_vec.
    rewrite (proj2 (Nat.eqb_eq _ _)) by lia. eexists. split; [reflexivity|]. split; [unfold well_formed; cbn [dims flat]; lia|].
    split; [reflexivity|]. intros oc R. rewrite elem_in by exact R. cbn [dims flat].
    destruct (H oc R) as (Hm & Rg). rewrite elem_in by exact Rg. symmetry. exact (omap_nth _ _ _ _ _ E Hm).
Qed.

(** The axis normalisation is ONNX's. *)
Lemma normalize_axis_ok rank a i : normalize_axis rank a = Some i <->
  valid_axis (Z.of_nat rank) a /\ i = axis_position (Z.of_nat rank) a.
Proof.
  unfold normalize_axis, valid_axis, axis_position. destruct (Z.ltb_spec a 0).
  - destruct (Z.ltb_spec (Z.of_nat rank + a) 0); cbn [orb].
    + split; [discriminate|lia].
    + destruct (Z.leb_spec (Z.of_nat rank) (Z.of_nat rank + a)); [lia|]. rewrite Z.add_comm.
      split; [intros E; injection E as <-; split; [lia|reflexivity]|intros (_ & ->); reflexivity].
  - destruct (Z.ltb_spec a 0); [lia|]. cbn [orb]. destruct (Z.leb_spec (Z.of_nat rank) a).
    + split; [discriminate|lia].
    + split; [intros E; injection E as <-; split; [lia|reflexivity]|intros (_ & ->); reflexivity].
Qed.
Lemma axis_position_lt rank a : valid_axis (Z.of_nat rank) a -> axis_position (Z.of_nat rank) a < rank.
Proof. unfold valid_axis, axis_position. destruct (Z.ltb_spec a 0); lia. Qed.
