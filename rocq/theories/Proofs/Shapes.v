From Coq Require Import List Arith Lia Bool ZArith String Permutation.
From Verif Require Import Base.Array Base.Machine Spec.Shapes Model.Shapes.
Import ListNotations.
Local Open Scope list_scope.
Local Notation length := List.length.

(** ** Mixed-radix numbers *)
(** ((c 0 * s 1 + c 1) * s 2 + ...), over the first [n] digits. *)
Fixpoint horner (c s : nat -> nat) (n : nat) : nat :=
  match n with O => 0 | S k => horner c s k * s k + c k end.
Fixpoint nprod (s : nat -> nat) (n : nat) : nat :=
  match n with O => 1 | S k => nprod s k * s k end.
Lemma horner_ext c c' s s' n : (forall i, i < n -> c i = c' i /\ s i = s' i) -> horner c s n = horner c' s' n.
Proof.
  induction n as [|n IH]; intros H; [reflexivity|]. cbn. destruct (H n) as (-> & ->); [lia|].
  rewrite IH; auto.
Qed.
Lemma nprod_ext s s' n : (forall i, i < n -> s i = s' i) -> nprod s n = nprod s' n.
Proof. induction n as [|n IH]; intros H; [reflexivity|]. cbn. rewrite H, IH; auto. Qed.
Lemma horner_lt c s n : (forall i, i < n -> c i < s i) -> horner c s n < nprod s n.
Proof.
  induction n as [|n IH]; intros H; cbn; [lia|]. specialize (H n ltac:(lia)) as Hn.
  assert (horner c s n < nprod s n) by (apply IH; auto). nia.
Qed.
(** The digits of [x]. *)
Fixpoint digit (s : nat -> nat) (n x : nat) (i : nat) : nat :=
  match n with O => 0 | S k => if i =? k then x mod s k else digit s k (x / s k) i end.
Lemma digit_horner c s n : (forall i, i < n -> c i < s i) -> forall i, i < n -> digit s n (horner c s n) i = c i.
Proof.
  induction n as [|n IH]; intros H i Hi; [lia|]. cbn. specialize (H n ltac:(lia)) as Hn.
  destruct (Nat.eqb_spec i n) as [->|].
  - rewrite Nat.add_comm, Nat.mod_add by lia. now apply Nat.mod_small.
  - rewrite Nat.div_add_l by lia. rewrite (Nat.div_small (c n)) by auto. rewrite Nat.add_0_r. apply IH; auto; lia.
Qed.
Lemma digit_lt s n : forall x i, x < nprod s n -> i < n -> digit s n x i < s i.
Proof.
  induction n as [|n IH]; intros x i Hx Hi; [lia|]. cbn in *. assert (s n <> 0) by (intros E; rewrite E in Hx; lia).
  destruct (Nat.eqb_spec i n) as [->|]; [now apply Nat.mod_upper_bound|]. apply IH; [|lia].
  apply Nat.div_lt_upper_bound; lia.
Qed.
Lemma horner_digit s n : forall x, x < nprod s n -> horner (digit s n x) s n = x.
Proof.
  induction n as [|n IH]; intros x Hx; cbn in *; [lia|]. assert (s n <> 0) by (intros E; rewrite E in Hx; lia).
  rewrite Nat.eqb_refl. rewrite (horner_ext _ (digit s n (x / s n)) s s).
  - rewrite IH by (apply Nat.div_lt_upper_bound; lia). pose proof (Nat.div_mod x (s n) H). lia.
  - intros i Hi. destruct (Nat.eqb_spec i n); [lia|auto].
Qed.

(** Lists as digit functions. *)
Lemma combine_snoc {A B} (a : list A) : forall (b : list B) x y, length a = length b ->
  combine (a ++ [x]) (b ++ [y]) = combine a b ++ [(x, y)].
Proof. induction a as [|z a IH]; intros [|w b] x y E; cbn in *; try discriminate; auto. now rewrite IH by lia. Qed.
Lemma row_major_horner n : forall c s f g, arr c n f -> arr s n g -> row_major c s = horner f g n.
Proof.
  induction n as [|n IH]; intros c s f g (Lc & Hc) (Ls & Hs).
  - destruct c; [reflexivity|discriminate].
  - destruct c as [|x c _] using rev_ind; [discriminate|]. destruct s as [|y s _] using rev_ind; [discriminate|].
    rewrite app_length in Lc, Ls. cbn in Lc, Ls. unfold row_major. rewrite combine_snoc by lia.
    rewrite fold_left_app. cbn [fold_left fst snd]. fold (row_major c s).
    pose proof (Hc n ltac:(lia)) as Ec. pose proof (Hs n ltac:(lia)) as Es.
    rewrite nth_error_app2 in Ec, Es by lia. replace (n - length c) with 0 in Ec by lia.
    replace (n - length s) with 0 in Es by lia. injection Ec as ->. injection Es as ->. cbn.
    rewrite (IH c s f g); auto; split; try lia; intros i Hi; [rewrite <- Hc by lia|rewrite <- Hs by lia];
      rewrite nth_error_app1; auto; lia.
Qed.
Lemma prod_nprod n : forall s g, arr s n g -> prod s = nprod g n.
Proof.
  induction n as [|n IH]; intros s g (L & H).
  - destruct s; [reflexivity|discriminate].
  - destruct s as [|y s _] using rev_ind; [discriminate|]. rewrite app_length in L. cbn in L.
    pose proof (H n ltac:(lia)) as E. rewrite nth_error_app2 in E by lia. replace (n - length s) with 0 in E by lia.
    injection E as ->. unfold prod. rewrite fold_right_app. cbn [fold_right nprod]. rewrite <- (IH s g).
    + rewrite Nat.mul_1_r. clear. induction s as [|x s IHs]; cbn; [lia|]. rewrite IHs. unfold prod. lia.
    + split; [lia|]. intros i Hi. rewrite <- H by lia. rewrite nth_error_app1; auto. lia.
Qed.
Lemma in_range_arr c s n f g : arr c n f -> arr s n g -> (in_range c s <-> forall i, i < n -> f i < g i).
Proof.
  intros (Lc & Hc) (Ls & Hs). unfold in_range. split.
  - intros F i Hi. revert i Hi. assert (G : forall i x y, nth_error c i = Some x -> nth_error s i = Some y -> x < y).
    { clear - F. induction F as [|x y c s H F IH]; intros [|i] a b; cbn; try discriminate.
      - intros E1 E2. now injection E1 as <-; injection E2 as <-.
      - apply IH. }
    intros i Hi. eapply G; eauto.
  - intros F. revert f g n c Lc Hc Ls Hs F. induction s as [|y s IH]; intros f g n c Lc Hc Ls Hs F; destruct c as [|x c];
      cbn in *; try lia; constructor.
    + pose proof (Hc 0 ltac:(lia)) as E1. pose proof (Hs 0 ltac:(lia)) as E2. cbn in *. injection E1 as ->. injection E2 as ->.
      apply F. lia.
    + apply (IH (fun i => f (S i)) (fun i => g (S i)) (n - 1) c); try lia.
      * intros i Hi. apply (Hc (S i)). lia.
      * intros i Hi. apply (Hs (S i)). lia.
      * intros i Hi. apply F. lia.
Qed.

(** ** ravel and unravel *)
Lemma rev_seq_S n : rev (seq 0 (S n)) = n :: rev (seq 0 n).
Proof. rewrite seq_S, rev_app_distr. reflexivity. Qed.

Lemma ravel_ok coords shape m f g : arr coords m f -> arr shape (length shape) g -> length shape <= m ->
  ravel coords shape = Some (horner f g (length shape)).
Proof.
  intros Hc Hs Hm. unfold ravel.
  assert (G : forall n flat stride, n <= length shape ->
    for_in (rev (seq 0 n)) (fun i (st : nat * nat) => let (flat, stride) := st in
      let* c := aget coords i in let* s := aget shape i in Some (flat + c * stride, stride * s)) (flat, stride) =
    Some (flat + stride * horner f g n, stride * nprod g n)).
  { induction n as [|n IH]; intros flat stride Hn.
    - cbn. f_equal. f_equal; lia.
    - rewrite rev_seq_S. cbn [for_in]. rewrite (arr_get _ _ _ n Hc), (arr_get _ _ _ n Hs) by lia. cbn [obind].
      rewrite IH by lia. cbn [horner nprod]. f_equal. f_equal; lia. }
  rewrite G by lia. cbn [obind]. f_equal. lia.
Qed.

Lemma unravel_loop shape g : arr shape (length shape) g ->
  forall n flat coords f, arr coords (length shape) f -> n <= length shape -> (forall i, i < n -> 0 < g i) ->
  exists flat' coords', for_in (rev (seq 0 n)) (fun i (st : nat * list nat) => let (flat, coords) := st in
    let* s := aget shape i in
    if 0 <? s then let* coords := aset coords i (flat mod s) in Some (flat / s, coords)
    else Some (flat, coords)) (flat, coords) = Some (flat', coords') /\
    arr coords' (length shape) (fun i => if i <? n then digit g n flat i else f i).
Proof.
  intros Hs. induction n as [|n IH]; intros flat coords f Hc Hn Hp.
  - exists flat, coords. split; [reflexivity|]. exact Hc.
  - rewrite rev_seq_S. cbn [for_in]. rewrite (arr_get _ _ _ n Hs) by lia. cbn [obind].
    destruct (Nat.ltb_spec 0 (g n)) as [_|B]; [|specialize (Hp n); lia].
    destruct (arr_set _ _ _ n (flat mod g n) Hc ltac:(lia)) as (c1 & -> & H1). cbn [obind].
    destruct (IH (flat / g n) c1 _ H1) as (flat' & c' & E & H'); [lia|intros; apply Hp; lia|].
    exists flat', c'. split; [exact E|]. apply (arr_ext _ _ _ _ H'). intros i Hi. cbn [digit].
    destruct (Nat.ltb_spec i n), (Nat.ltb_spec i (S n)), (Nat.eqb_spec i n); try lia; auto.
Qed.

Lemma arr_eta (l : list nat) : arr l (length l) (fun i => nth i l 0).
Proof. apply arr_self. Qed.

Theorem ravel_row_major coords shape : length coords = length shape -> ravel coords shape = Some (row_major coords shape).
Proof.
  intros L. rewrite (ravel_ok coords shape (length coords) _ _ (arr_eta coords) (arr_eta shape)) by lia.
  f_equal. symmetry. apply row_major_horner; [|apply arr_eta]. rewrite <- L. apply arr_eta.
Qed.

Lemma in_range_length c s : in_range c s -> length c = length s.
Proof. induction 1; cbn; auto. Qed.

Lemma row_major_lt coords shape : in_range coords shape -> row_major coords shape < prod shape.
Proof.
  intros R. pose proof (in_range_length _ _ R) as L. pose proof (arr_eta coords) as A. rewrite L in A.
  rewrite (row_major_horner _ _ _ _ _ A (arr_eta shape)), (prod_nprod _ _ _ (arr_eta shape)).
  apply horner_lt. exact (proj1 (in_range_arr _ _ _ _ _ A (arr_eta shape)) R).
Qed.

Lemma nprod_pos_all g n : 0 < nprod g n -> forall i, i < n -> 0 < g i.
Proof.
  induction n as [|n IH]; cbn; intros H i Hi; [lia|]. destruct (Nat.eq_dec i n) as [->|]; [nia|]. apply IH; [nia|lia].
Qed.

Theorem unravel_ok flat shape : flat < prod shape -> exists coords, unravel flat shape = Some coords /\
  in_range coords shape /\ row_major coords shape = flat.
Proof.
  intros H. pose proof (arr_eta shape) as A. rewrite (prod_nprod _ _ _ A) in H.
  unfold unravel. destruct (unravel_loop shape _ A (length shape) flat _ _ (arr_repeat 0 _) (le_n _)) as (f' & c & E & Hc).
  - apply nprod_pos_all. lia.
  - rewrite E. cbn [obind]. exists c. split; [reflexivity|].
    apply (arr_ext _ _ _ (digit (fun i => nth i shape 0) (length shape) flat)) in Hc.
    2:{ intros i Hi. destruct (Nat.ltb_spec i (length shape)); [reflexivity|lia]. }
    split.
    + apply (in_range_arr _ _ _ _ _ Hc A). intros i Hi. apply (digit_lt (fun i => nth i shape 0)); auto.
    + rewrite (row_major_horner _ _ _ _ _ Hc A). apply horner_digit. exact H.
Qed.

Lemma row_major_inj c d shape : in_range c shape -> in_range d shape -> row_major c shape = row_major d shape -> c = d.
Proof.
  intros Rc Rd E. pose proof (in_range_length _ _ Rc) as Lc. pose proof (in_range_length _ _ Rd) as Ld.
  pose proof (arr_eta c) as Ac. pose proof (arr_eta d) as Ad. rewrite Lc in Ac. rewrite Ld in Ad.
  pose proof (arr_eta shape) as A. rewrite (row_major_horner _ _ _ _ _ Ac A), (row_major_horner _ _ _ _ _ Ad A) in E.
  pose proof (proj1 (in_range_arr _ _ _ _ _ Ac A) Rc) as Fc. pose proof (proj1 (in_range_arr _ _ _ _ _ Ad A) Rd) as Fd.
  apply (arr_uniq c d (length shape) (fun i => nth i c 0) Ac). apply (arr_ext _ _ _ _ Ad). intros i Hi.
  rewrite <- (digit_horner _ _ _ Fc i Hi), <- (digit_horner _ _ _ Fd i Hi), E. reflexivity.
Qed.

Theorem ravel_unravel coords shape : in_range coords shape ->
  exists flat, ravel coords shape = Some flat /\ flat < prod shape /\ unravel flat shape = Some coords.
Proof.
  intros R. exists (row_major coords shape). split; [apply ravel_row_major; now apply in_range_length|].
  pose proof (row_major_lt _ _ R) as L. split; auto. destruct (unravel_ok _ _ L) as (c & -> & R' & E).
  f_equal. symmetry. apply (row_major_inj _ _ shape); auto.
Qed.
Theorem unravel_ravel flat shape : flat < prod shape ->
  exists coords, unravel flat shape = Some coords /\ in_range coords shape /\ ravel coords shape = Some flat.
Proof.
  intros H. destruct (unravel_ok _ _ H) as (c & E & R & <-). exists c. repeat split; auto.
  apply ravel_row_major. now apply in_range_length.
Qed.

(** ** Broadcasting *)
Theorem broadcast_index_ok oc out shape : in_range oc out -> expands_to shape out ->
  in_range (read_coords oc shape) shape /\
  broadcast_index oc shape (length out) = Some (row_major (read_coords oc shape) shape) /\
  row_major (read_coords oc shape) shape < prod shape.
Proof.
  intros R (L & F). pose proof (in_range_length _ _ R) as Lo.
  assert (IR : in_range (read_coords oc shape) shape).
  { unfold read_coords. rewrite Lo. remember (length out - length shape) as k eqn:Ek.
    assert (R' : in_range (skipn k oc) (skipn k out)).
    { clear - R. revert oc out R. induction k as [|k IH]; intros oc out R; [exact R|].
      destruct R as [|x y oc out H R]; [constructor|]. cbn. apply IH. exact R. }
    revert R' F. generalize (skipn k oc) (skipn k out). clear. intros c out R' F. revert c R'.
    induction F as [|s o shape out H F IH]; intros c R'.
    - inversion R'; subst. constructor.
    - inversion R' as [|x ? c' ? Hx Rc E1 E2]; subst. cbn. constructor; [|apply IH; auto].
      destruct (Nat.eqb_spec s 1); lia. }
  split; [exact IR|]. split; [|now apply row_major_lt].
  unfold broadcast_index. destruct (Nat.leb_spec (length shape) (length out)); [|lia]. cbn [guard obind].
  destruct (Nat.leb_spec (length out - length shape) (length oc)); [|lia]. cbn [guard obind].
  rewrite <- Lo. apply ravel_row_major. now apply in_range_length.
Qed.

Lemma dim_or_1_ok a i : dim_or_1 a i = Some (dim_from_right a i).
Proof.
  unfold dim_or_1, dim_from_right. destruct (Nat.leb_spec (1 + i) (length a)) as [L|L].
  - unfold aget. rewrite rev_nth by lia. rewrite (nth_error_nth' _ 1) by lia. reflexivity.
  - rewrite nth_overflow by (rewrite rev_length; lia). reflexivity.
Qed.

Definition dims_ok (x y : nat) : bool := (x =? y) || (x =? 1) || (y =? 1).
Lemma broadcast_loop a b rank : forall n result f, arr result rank f -> n <= rank ->
  for_in (seq 0 n) (fun i result =>
    let* a_dim := dim_or_1 a i in
    let* b_dim := dim_or_1 b i in
    if (a_dim =? b_dim) || (a_dim =? 1) || (b_dim =? 1)
    then aset result (rank - 1 - i) (Nat.max a_dim b_dim) else None) result = None \/
  (forall i, i < n -> dims_ok (dim_from_right a i) (dim_from_right b i) = true) /\
  exists r', for_in (seq 0 n) (fun i result =>
    let* a_dim := dim_or_1 a i in
    let* b_dim := dim_or_1 b i in
    if (a_dim =? b_dim) || (a_dim =? 1) || (b_dim =? 1)
    then aset result (rank - 1 - i) (Nat.max a_dim b_dim) else None) result = Some r' /\
    arr r' rank (fun k => if rank - 1 - k <? n then Nat.max (dim_from_right a (rank - 1 - k)) (dim_from_right b (rank - 1 - k)) else f k).
Proof.
  induction n as [|n IH]; intros result f Hr Hn.
  - right. split; [intros; lia|]. exists result. split; [reflexivity|]. exact Hr.
  - rewrite seq_S, for_in_app. destruct (IH result f Hr) as [E|(D & r1 & E & H1)]; [lia|left; now rewrite E|].
    rewrite E. cbn [obind for_in Nat.add]. rewrite !dim_or_1_ok. cbn [obind].
    fold (dims_ok (dim_from_right a n) (dim_from_right b n)).
    destruct (dims_ok (dim_from_right a n) (dim_from_right b n)) eqn:Ed; [|left; reflexivity].
    destruct (arr_set _ _ _ (rank - 1 - n) (Nat.max (dim_from_right a n) (dim_from_right b n)) H1 ltac:(lia)) as (r2 & -> & H2).
    right. split.
    + intros i Hi. destruct (Nat.eq_dec i n) as [->|]; [auto|apply D; lia].
    + exists r2. split; [reflexivity|]. apply (arr_ext _ _ _ _ H2). intros k Hk. cbv beta.
      destruct (Nat.eqb_spec k (rank - 1 - n)) as [->|Nk].
      * replace (rank - 1 - (rank - 1 - n)) with n by lia. destruct (Nat.ltb_spec n (S n)); [reflexivity|lia].
      * destruct (Nat.ltb_spec (rank - 1 - k) n), (Nat.ltb_spec (rank - 1 - k) (S n)); try reflexivity; lia.
Qed.

Lemma dims_ok_spec x y : dims_ok x y = true <-> x = y \/ x = 1 \/ y = 1.
Proof. unfold dims_ok. rewrite !orb_true_iff, !Nat.eqb_eq. tauto. Qed.
Lemma dims_agree_max x y : 0 < x -> 0 < y -> forall r, dims_agree x y r <-> (x = y \/ x = 1 \/ y = 1) /\ r = Nat.max x y.
Proof. intros Hx Hy r. unfold dims_agree. lia. Qed.
Lemma from_right_pos a i : Forall (lt 0) a -> 0 < dim_from_right a i.
Proof.
  intros F. unfold dim_from_right. destruct (Nat.lt_ge_cases i (length (rev a))) as [L|L].
  - rewrite Forall_forall in F. apply F. apply in_rev. now apply nth_In.
  - rewrite nth_overflow; auto.
Qed.
Lemma from_right_arr r f i : arr r (length r) f -> i < length r -> dim_from_right r i = f (length r - 1 - i).
Proof.
  intros (_ & H) Hi. unfold dim_from_right. rewrite rev_nth by auto.
  specialize (H (length r - S i) ltac:(lia)). rewrite (nth_error_nth' _ 1) in H by lia. injection H as ->. f_equal. lia.
Qed.

(** What the code computes for all shapes, zero dimensions included. *)
Lemma broadcast_shape_max a b r : determine_broadcast_shape a b = Some r <->
  length r = Nat.max (length a) (length b) /\ forall i, i < length r ->
    dims_ok (dim_from_right a i) (dim_from_right b i) = true /\
    dim_from_right r i = Nat.max (dim_from_right a i) (dim_from_right b i).
Proof.
  unfold determine_broadcast_shape. set (rank := Nat.max (length a) (length b)).
  destruct (broadcast_loop a b rank rank _ _ (arr_repeat 0 rank) (le_n _)) as [E|(D & r' & E & H)]; rewrite E.
  - split; [discriminate|]. intros (L & H). exfalso.
    assert (G : forall n, n <= rank -> exists x, for_in (seq 0 n) (fun i result =>
      let* a_dim := dim_or_1 a i in
      let* b_dim := dim_or_1 b i in
      if (a_dim =? b_dim) || (a_dim =? 1) || (b_dim =? 1)
      then aset result (rank - 1 - i) (Nat.max a_dim b_dim) else None) (repeat 0 rank) = Some x /\ length x = rank).
    { induction n as [|n IH]; intros Hn; [exists (repeat 0 rank); split; [reflexivity|apply repeat_length]|].
      destruct IH as (x & Ex & Lx); [lia|]. rewrite seq_S, for_in_app, Ex. cbn [obind for_in Nat.add]. rewrite !dim_or_1_ok. cbn [obind].
      fold (dims_ok (dim_from_right a n) (dim_from_right b n)). destruct (H n) as (-> & _); [lia|].
      destruct (aset_some x (rank - 1 - n) (Nat.max (dim_from_right a n) (dim_from_right b n))) as (y & -> & Ly & _); [lia|].
      exists y. split; [reflexivity|lia]. }
    destruct (G rank (le_n _)) as (x & Ex & _). congruence.
  - pose proof (proj1 H) as L. split.
    + intros X. injection X as <-. split; auto. intros i Hi. split; [apply D; lia|].
      rewrite <- L in H. rewrite (from_right_arr _ _ i H) by auto. cbv beta. rewrite L in Hi |- *.
      replace (rank - 1 - (rank - 1 - i)) with i by lia. destruct (Nat.ltb_spec i rank); [reflexivity|lia].
    + intros (Lr & Hr). f_equal. apply (arr_uniq r' r rank _ H). split; auto. intros k Hk.
      destruct (Nat.ltb_spec (rank - 1 - k) rank); [|lia]. destruct (Hr (rank - 1 - k)) as (_ & Er); [lia|].
      rewrite <- Er. unfold dim_from_right. rewrite rev_nth by lia. rewrite (nth_error_nth' _ 1) by lia. do 2 f_equal. lia.
Qed.

Theorem broadcast_shape_ok a b r : Forall (lt 0) a -> Forall (lt 0) b ->
  (determine_broadcast_shape a b = Some r <-> broadcasts_to a b r).
Proof.
  intros Pa Pb. rewrite broadcast_shape_max. unfold broadcasts_to.
  split; intros (L & H); split; auto; intros i Hi; specialize (H i Hi).
  - apply dims_agree_max; auto using from_right_pos. rewrite dims_ok_spec in H. tauto.
  - apply dims_agree_max in H; auto using from_right_pos. rewrite dims_ok_spec. tauto.
Qed.
Theorem broadcast_shape_comm a b : determine_broadcast_shape a b = determine_broadcast_shape b a.
Proof.
  assert (S : forall a b r, determine_broadcast_shape a b = Some r -> determine_broadcast_shape b a = Some r).
  { clear. intros a b r H. apply broadcast_shape_max in H. apply broadcast_shape_max. destruct H as (L & H).
    split; [lia|]. intros i Hi. destruct (H i Hi) as (D & E). rewrite dims_ok_spec in *. split; [intuition|lia]. }
  destruct (determine_broadcast_shape a b) as [r|] eqn:E1; [symmetry; now apply S|].
  destruct (determine_broadcast_shape b a) as [r|] eqn:E2; [|reflexivity]. apply S in E2. congruence.
Qed.
Theorem broadcast_shape_idem a : determine_broadcast_shape a a = Some a.
Proof.
  apply broadcast_shape_max. split; [lia|]. intros i _. rewrite dims_ok_spec. split; [auto|lia].
Qed.
Lemma nth_skip {A} (l : list A) n k d : nth k (skipn n l) d = nth (n + k) l d.
Proof. revert l. induction n as [|n IH]; intros [|x l]; cbn; auto. now destruct k. Qed.
(** Both operands expand to the result. *)
Theorem broadcast_shape_expands a b r : Forall (lt 0) a -> Forall (lt 0) b -> determine_broadcast_shape a b = Some r ->
  expands_to a r /\ expands_to b r.
Proof.
  enough (G : forall a b r, Forall (lt 0) a -> Forall (lt 0) b -> determine_broadcast_shape a b = Some r -> expands_to a r).
  { intros Pa Pb H. split; [now apply (G a b)|]. apply (G b a); auto. now rewrite broadcast_shape_comm. }
  clear. intros a b r Pa Pb H. apply broadcast_shape_ok in H; auto. destruct H as (L & H). split; [lia|].
  assert (G : forall (x y : list nat), length x = length y -> (forall k, k < length x -> nth k x 1 = 1 \/ nth k x 1 = nth k y 1) ->
    Forall2 (fun s o => s = 1 \/ s = o) x y).
  { clear. induction x as [|u x IH]; intros [|v y] L H; cbn in L; try discriminate; constructor.
    - apply (H 0). cbn. lia.
    - apply IH; [lia|]. intros k Hk. apply (H (S k)). cbn. lia. }
  apply G; [rewrite skipn_length; lia|]. intros k Hk.
  pose proof (nth_skip r (length r - length a) k 1) as En.
  rewrite En. specialize (H (length a - 1 - k) ltac:(lia)). unfold dim_from_right in H. rewrite (rev_nth a), (rev_nth r) in H by lia.
  replace (length a - S (length a - 1 - k)) with k in H by lia.
  replace (length r - S (length a - 1 - k)) with (length r - length a + k) in H by lia.
  destruct H as [H|[H|H]]; lia.
Qed.
