From Coq Require Import List Arith Lia Bool ZArith String Permutation Sorted.
From Verif Require Import Base.Array Base.Machine Spec.Shapes Model.Shapes Proofs.Shapes.
Import ListNotations.
Local Open Scope list_scope.
Local Notation length := List.length.
Local Notation concat := List.concat.

(** ** Reductions *)
Lemma is_axis_In axes i : is_axis axes i = true <-> In i axes.
Proof.
  unfold is_axis. rewrite existsb_exists. split.
  - intros (x & I & E). apply Nat.eqb_eq in E. now subst.
  - intros I. exists i. split; auto. apply Nat.eqb_refl.
Qed.

Lemma firstn_snoc {A} (l : list A) n x : nth_error l n = Some x -> firstn (S n) l = firstn n l ++ [x].
Proof.
  revert l. induction n as [|n IH]; intros [|y l] H; try discriminate; cbn [nth_error] in H.
  - now injection H as ->.
  - cbn [firstn app]. f_equal. now apply IH.
Qed.
Lemma NoDup_map_inj {A B} (f : A -> B) (l : list A) : (forall x y, In x l -> In y l -> f x = f y -> x = y) -> NoDup l -> NoDup (map f l).
Proof.
  intros I N. induction N as [|x l Nx N IH]; cbn; constructor.
  - intros J. apply in_map_iff in J. destruct J as (y & E & Hy). apply Nx. rewrite <- (I y x); cbn; auto.
  - apply IH. intros; apply I; cbn; auto.
Qed.
Lemma finite_choice {A} (d : A) N (P : nat -> A -> Prop) : (forall r, r < N -> exists x, P r x) ->
  exists h, forall r, r < N -> P r (h r).
Proof.
  induction N as [|N IH]; intros H; [exists (fun _ => d); lia|].
  destruct IH as (h & Hh); [intros; apply H; lia|]. destruct (H N ltac:(lia)) as (x & Hx).
  exists (fun r => if r =? N then x else h r). intros r Hr. destruct (Nat.eqb_spec r N) as [->|]; auto. apply Hh. lia.
Qed.

Section Reduce.
Variables (axes shape : list nat).
Hypothesis ND : NoDup axes.
Hypothesis HA : Forall (fun a => a < length shape) axes.
Let rank := length shape.
Let ax (j : nat) : nat := nth j axes 0.
Let dim (i : nat) : nat := nth i shape 0.
Let k := length axes.
Let sz (j : nat) : nat := dim (ax j).

Lemma ax_arr : arr axes k ax.
Proof. apply arr_eta. Qed.
Lemma ax_lt j : j < k -> ax j < rank.
Proof. intros H. rewrite Forall_forall in HA. apply HA. apply nth_In. exact H. Qed.
Lemma ax_inj i j : i < k -> j < k -> ax i = ax j -> i = j.
Proof. intros Hi Hj E. eapply NoDup_nth; eauto. Qed.
Lemma dim_arr : arr shape rank dim.
Proof. apply arr_eta. Qed.

(** What [base] must provide. *)
Definition is_base (keep : bool) (oc : list nat) (b : nat -> nat) : Prop :=
  forall ic f, arr ic rank f -> (reduced axes keep ic = oc <-> forall i, i < rank -> ~ In i axes -> f i = b i).

(** The kept coordinates, by recursion on the number of axes looked at. *)
Definition cntb (n : nat) : nat := length (filter (fun i => negb (is_axis axes i)) (seq 0 n)).
Lemma cntb_S n : cntb (S n) = cntb n + if is_axis axes n then 0 else 1.
Proof. unfold cntb. rewrite seq_S, filter_app, app_length. cbn. now destruct (is_axis axes n). Qed.
Lemma cntb_mono n m : n <= m -> cntb n <= cntb m.
Proof. induction 1; auto. rewrite cntb_S. lia. Qed.
Fixpoint kept (f : nat -> nat) (n : nat) : list nat :=
  match n with O => [] | S m => kept f m ++ if is_axis axes m then [] else [f m] end.
Lemma kept_ok l n f : arr l n f ->
  map snd (filter (fun e => negb (is_axis axes (fst e))) (combine (seq 0 n) l)) = kept f n.
Proof.
  revert l. induction n as [|n IH]; intros l (L & H); [reflexivity|].
  destruct l as [|x l _] using rev_ind; [discriminate|]. rewrite app_length in L. cbn in L.
  pose proof (H n ltac:(lia)) as E. rewrite nth_error_app2 in E by lia. replace (n - length l) with 0 in E by lia. injection E as ->.
  rewrite seq_S, combine_snoc by (rewrite seq_length; lia). rewrite filter_app, map_app, IH.
  - cbn. now destruct (is_axis axes n).
  - split; [lia|]. intros i Hi. rewrite <- H by lia. rewrite nth_error_app1; auto. lia.
Qed.
Lemma kept_length f n : length (kept f n) = cntb n.
Proof.
  induction n as [|n IH]; [reflexivity|]. cbn [kept]. rewrite app_length, IH, cntb_S. now destruct (is_axis axes n).
Qed.
Lemma kept_iff f oc g n : arr oc (cntb rank) g -> n <= rank ->
  (kept f n = firstn (cntb n) oc <-> forall i, i < n -> ~ In i axes -> f i = g (cntb i)).
Proof.
  intros (L & H) Hn. induction n as [|n IH].
  - cbn. split; [intros; lia|reflexivity].
  - pose proof (cntb_mono (S n) rank Hn) as M. rewrite cntb_S in *. cbn [kept].
    destruct (is_axis axes n) eqn:E.
    + rewrite app_nil_r, Nat.add_0_r, IH by lia. split; intros F i Hi Ni; apply F; auto; try lia.
      destruct (Nat.eq_dec i n) as [->|]; [|lia]. apply is_axis_In in E. contradiction.
    + rewrite Nat.add_1_r. assert (X : firstn (S (cntb n)) oc = firstn (cntb n) oc ++ [g (cntb n)]).
      { apply firstn_snoc. apply H. lia. }
      rewrite X. split.
      * intros F. apply app_inj_tail in F. destruct F as (F & Fn). pose proof (proj1 (IH ltac:(lia)) F) as F'.
        intros i Hi Ni. destruct (Nat.eq_dec i n) as [->|]; auto. apply F'; auto; lia.
      * intros F. f_equal; [apply IH; [lia|]; intros; apply F; auto; lia|]. f_equal. apply F; [lia|].
        intros I. apply is_axis_In in I. congruence.
Qed.

Lemma base_ok oc keep : in_range oc (reduced_shape axes keep shape) ->
  exists base b, reduction_base oc axes keep rank = Some base /\ arr base rank b /\ is_base keep oc b /\
    forall i, i < rank -> ~ In i axes -> b i < dim i.
Proof.
  intros R. pose proof (in_range_length _ _ R) as L. destruct keep; cbn [reduction_base reduced_shape reduced] in *.
  - assert (Lo : length oc = rank).
    { rewrite L, map_length, combine_length, seq_length. unfold rank. lia. }
    exists oc, (fun i => nth i oc 0). pose proof (arr_eta oc) as Ao. rewrite Lo in Ao. split; auto. split; auto.
    assert (Hs : arr (map (fun e => if is_axis axes (fst e) then 1 else snd e) (combine (seq 0 (length shape)) shape)) rank
      (fun i => if is_axis axes i then 1 else dim i)).
    { split; [rewrite map_length, combine_length, seq_length; unfold rank; lia|]. intros i Hi.
      rewrite nth_error_map. rewrite (nth_error_nth' _ (0, 0)) by (rewrite combine_length, seq_length; unfold rank in *; lia).
      rewrite combine_nth by apply seq_length. cbn. rewrite seq_nth by (unfold rank in *; lia). reflexivity. }
    pose proof (proj1 (in_range_arr _ _ _ _ _ Ao Hs) R) as F. split.
    + intros ic f Hic. assert (Hr : arr (reduced axes true ic) rank (fun i => if is_axis axes i then 0 else f i)).
      { pose proof (proj1 Hic) as Li. unfold reduced. split; [rewrite map_length, combine_length, seq_length; lia|]. intros i Hi.
        rewrite nth_error_map. rewrite (nth_error_nth' _ (0, 0)) by (rewrite combine_length, seq_length; lia).
        rewrite combine_nth by apply seq_length. cbn. rewrite seq_nth by lia. cbn.
        pose proof (proj2 Hic i Hi) as E. rewrite (nth_error_nth' _ 0) in E by lia. injection E as ->. reflexivity. }
      split.
      * intros E i Hi Ni. rewrite E in Hr. pose proof (proj2 Hr i Hi) as E1. pose proof (proj2 Ao i Hi) as E2.
        rewrite E1 in E2. injection E2 as <-. destruct (is_axis axes i) eqn:X; auto. apply is_axis_In in X. contradiction.
      * intros H. apply (arr_uniq _ _ rank _ Hr). apply (arr_ext _ _ _ _ Ao). intros i Hi. specialize (F i Hi).
        cbv beta in F. destruct (is_axis axes i) eqn:X; [lia|]. symmetry. apply H; auto. intros I. apply is_axis_In in I. congruence.
    + intros i Hi Ni. specialize (F i Hi). cbv beta in F. destruct (is_axis axes i) eqn:X; auto. apply is_axis_In in X. contradiction.
  - fold rank in R, L. rewrite (kept_ok shape rank dim dim_arr) in R, L. rewrite kept_length in L.
    pose proof (arr_eta oc) as Ao. rewrite L in Ao. set (g := fun i => nth i oc 0) in *.
    assert (G : forall n, n <= rank -> exists c, for_in (seq 0 n) (fun ax (st : list nat * nat) =>
      let (in_coords, out_idx) := st in
      if is_axis axes ax then let* in_coords := aset in_coords ax 0 in Some (in_coords, out_idx)
      else let* c := aget oc out_idx in let* in_coords := aset in_coords ax c in Some (in_coords, out_idx + 1))
      (repeat 0 rank, 0) = Some (c, cntb n) /\
      arr c rank (fun i => if i <? n then (if is_axis axes i then 0 else g (cntb i)) else 0)).
    { induction n as [|n IH]; intros Hn.
      - exists (repeat 0 rank). split; [reflexivity|]. apply arr_repeat.
      - destruct IH as (c & E & Hc); [lia|]. pose proof (cntb_mono (S n) rank Hn) as M. rewrite cntb_S in *. rewrite seq_S, for_in_app, E. cbn [obind for_in Nat.add].
        destruct (is_axis axes n) eqn:X.
        + destruct (arr_set _ _ _ n 0 Hc ltac:(lia)) as (c' & -> & Hc'). cbn [obind]. exists c'. rewrite Nat.add_0_r. split; auto.
          apply (arr_ext _ _ _ _ Hc'). intros i Hi. cbv beta. destruct (Nat.eqb_spec i n) as [->|].
          * rewrite X. now destruct (n <? S n).
          * destruct (Nat.ltb_spec i n), (Nat.ltb_spec i (S n)); auto; lia.
        + rewrite (arr_get _ _ _ (cntb n) Ao) by lia. cbn [obind].
          destruct (arr_set _ _ _ n (g (cntb n)) Hc ltac:(lia)) as (c' & -> & Hc'). cbn [obind]. exists c'. split; auto.
          apply (arr_ext _ _ _ _ Hc'). intros i Hi. cbv beta. destruct (Nat.eqb_spec i n) as [->|].
          * rewrite X. destruct (Nat.ltb_spec n (S n)); [reflexivity|lia].
          * destruct (Nat.ltb_spec i n), (Nat.ltb_spec i (S n)); auto; lia. }
    destruct (G rank (le_n _)) as (c & E & Hc). rewrite E. cbn [obind].
    exists c, (fun i => if is_axis axes i then 0 else g (cntb i)). split; auto. split.
    { apply (arr_ext _ _ _ _ Hc). intros i Hi. destruct (Nat.ltb_spec i rank); [reflexivity|lia]. }
    split.
    + intros ic f Hic. unfold reduced. rewrite (proj1 Hic), (kept_ok ic rank f Hic).
      transitivity (kept f rank = firstn (cntb rank) oc).
      { rewrite <- L, firstn_all. reflexivity. }
      rewrite (kept_iff f oc g rank Ao (le_n _)). split; intros H i Hi Ni.
      * rewrite H by auto. destruct (is_axis axes i) eqn:X; auto. apply is_axis_In in X. contradiction.
      * rewrite H by auto. destruct (is_axis axes i) eqn:X; auto. apply is_axis_In in X. contradiction.
    + assert (Ak : arr (kept dim rank) (cntb rank) (fun i => nth i (kept dim rank) 0)) by (rewrite <- (kept_length dim rank); apply arr_eta).
      pose proof (proj1 (in_range_arr _ _ _ _ _ Ao Ak) R) as F. intros i Hi Ni.
      assert (X : is_axis axes i = false). { destruct (is_axis axes i) eqn:X; auto. apply is_axis_In in X. contradiction. }
      rewrite X. assert (K : kept dim rank = firstn (cntb rank) (kept dim rank)) by (rewrite <- (kept_length dim rank), firstn_all; reflexivity).
      apply (kept_iff dim (kept dim rank) _ rank Ak (le_n _)) with (i := i) in K; auto. cbv beta in K. rewrite K.
      apply F. pose proof (cntb_mono (S i) rank Hi) as M. rewrite cntb_S, X in M. lia.
Qed.

Lemma decode_ok base b n : arr base rank b -> n <= k -> forall r, r < nprod sz n ->
  exists r' c f, for_in (rev (seq 0 n)) (fun i (st : nat * list nat) =>
    let (r_rem, in_coords) := st in
    let* ax := aget axes i in
    let* sz := aget (map (fun j => sz j) (seq 0 k)) i in
    let* _ := guard (0 <? sz) in
    let* in_coords := aset in_coords ax (r_rem mod sz) in
    Some (r_rem / sz, in_coords)) (r, base) = Some (r', c) /\ arr c rank f /\
    (forall j, j < n -> f (ax j) = digit sz n r j) /\
    (forall i, i < rank -> (forall j, j < n -> ax j <> i) -> f i = b i).
Proof.
  revert base b. induction n as [|n IH]; intros base b Hb Hn r Hr.
  - exists r, base, b. split; [reflexivity|]. split; auto. split; auto. intros; lia.
  - rewrite rev_seq_S. cbn [for_in]. rewrite (arr_get _ _ _ n ax_arr) by lia.
    rewrite (arr_get _ _ _ n (arr_map_seq k (fun j => sz j))) by lia. cbn [obind].
    cbn [nprod] in Hr. destruct (Nat.ltb_spec 0 (sz n)) as [P|P]; [|assert (sz n = 0) as Z by lia; rewrite Z in Hr; lia].
    cbn [guard obind]. destruct (arr_set _ _ _ (ax n) (r mod sz n) Hb (ax_lt n ltac:(lia))) as (c1 & -> & H1). cbn [obind].
    destruct (IH c1 _ H1 ltac:(lia) (r / sz n)) as (r' & c & f & E & Hc & Fd & Fo).
    { apply Nat.div_lt_upper_bound; lia. }
    exists r', c, f. split; [exact E|]. split; auto. split.
    + intros j Hj. cbn [digit]. destruct (Nat.eqb_spec j n) as [->|Nj]; [|apply Fd; lia].
      rewrite Fo; [now rewrite Nat.eqb_refl|apply ax_lt; lia|]. intros j' Hj' E'. apply ax_inj in E'; lia.
    + intros i Hi Nj. rewrite Fo; auto. destruct (Nat.eqb_spec i (ax n)) as [E'|]; auto. destruct (Nj n); auto.
Qed.

Lemma sizes_ok : omap (fun a => aget shape a) axes = Some (map (fun j => sz j) (seq 0 k)).
Proof.
  assert (E : axes = map ax (seq 0 k)) by (apply arr_list, ax_arr). rewrite E at 1.
  rewrite (omap_total _ dim).
  - now rewrite map_map.
  - intros a Ha. rewrite <- E in Ha. rewrite Forall_forall in HA. apply (arr_get _ _ _ a dim_arr). apply HA. exact Ha.
Qed.

Theorem collect_ok oc keep : in_range oc (reduced_shape axes keep shape) ->
  exists l, collect_reduction_inputs oc axes keep shape rank = Some l /\ NoDup l /\
    forall x, In x l <-> exists ic, in_range ic shape /\ reduced axes keep ic = oc /\ x = row_major ic shape.
Proof.
  intros R. unfold collect_reduction_inputs. destruct (base_ok oc keep R) as (base & b & -> & Hb & IB & Rb). cbn [obind].
  rewrite sizes_ok. cbn [obind]. rewrite (prod_nprod k _ _ (arr_map_seq k (fun j => sz j))).
  set (N := nprod (fun j => sz j) k).
  assert (D : forall r, exists x, r < N -> reduction_input base axes (map (fun j => sz j) (seq 0 k)) shape r = Some x /\
    exists ic f, arr ic rank f /\ in_range ic shape /\ reduced axes keep ic = oc /\ x = row_major ic shape /\
      (forall j, j < k -> f (ax j) = digit sz k r j)).
  { intros r. destruct (Nat.lt_ge_cases r N) as [Hr|Hr]; [|exists 0; lia].
    destruct (decode_ok base b k Hb (le_n _) r Hr) as (r' & c & f & E & Hc & Fd & Fo).
    exists (row_major c shape). intros _. unfold reduction_input. fold k. rewrite E. cbn [obind].
    split; [apply ravel_row_major; exact (proj1 Hc)|]. exists c, f. split; auto.
    assert (NotAx : forall i, ~ In i axes -> forall j, j < k -> ax j <> i).
    { intros i Ni j Hj Ej. apply Ni. rewrite <- Ej. apply nth_In. exact Hj. }
    split; [|split; [|split; auto]].
    - apply (in_range_arr _ _ _ _ _ Hc dim_arr). intros i Hi. destruct (in_dec Nat.eq_dec i axes) as [I|I].
      + apply In_nth with (d := 0) in I. destruct I as (j & Hj & <-). fold (ax j). fold k in Hj. rewrite Fd by auto.
        fold (sz j). now apply (digit_lt sz).
      + rewrite Fo by auto. apply Rb; auto.
    - apply (IB c f Hc). intros i Hi Ni. apply Fo; auto. }
  destruct (finite_choice 0 N (fun r x => reduction_input base axes (map (fun j => sz j) (seq 0 k)) shape r = Some x /\
    exists ic f, arr ic rank f /\ in_range ic shape /\ reduced axes keep ic = oc /\ x = row_major ic shape /\
      (forall j, j < k -> f (ax j) = digit sz k r j))) as (h & Hh).
  { intros r Hr. destruct (D r) as (x & Hx). exists x. auto. }
  exists (map h (seq 0 N)). split.
  { apply omap_total. intros r Hr. apply in_seq in Hr. apply Hh. lia. }
  split.
  - apply (NoDup_map_inj h); [|apply seq_NoDup]. intros r r' Hr Hr' E. apply in_seq in Hr, Hr'.
    destruct (Hh r ltac:(lia)) as (_ & ic & f & A & I & _ & Ex & Fd). destruct (Hh r' ltac:(lia)) as (_ & ic' & f' & A' & I' & _ & Ex' & Fd').
    assert (ic = ic') as <- by (apply (row_major_inj _ _ shape); auto; congruence).
    assert (Hr2 : r < nprod sz k) by (destruct Hr; assumption). assert (Hr3 : r' < nprod sz k) by (destruct Hr'; assumption).
    rewrite <- (horner_digit sz k r Hr2), <- (horner_digit sz k r' Hr3). apply horner_ext. intros j Hj. split; auto.
    rewrite <- Fd, <- Fd' by auto. pose proof (proj2 A _ (ax_lt j Hj)). pose proof (proj2 A' _ (ax_lt j Hj)). congruence.
  - intros x. rewrite in_map_iff. split.
    + intros (r & <- & Hr). apply in_seq in Hr. destruct (Hh r ltac:(lia)) as (_ & ic & f & A & I & Rd & Ex & _). exists ic. auto.
    + intros (ic & I & Rd & ->). pose proof (in_range_length _ _ I) as L. pose proof (arr_eta ic) as A. rewrite L in A.
      fold rank in A. set (g := fun i => nth i ic 0) in *.
      pose proof (proj1 (in_range_arr _ _ _ _ _ A dim_arr) I) as Fg.
      set (r := horner (fun j => g (ax j)) sz k).
      assert (Hr : r < N). { apply horner_lt. intros j Hj. apply Fg. now apply ax_lt. }
      exists r. split; [|apply in_seq; lia]. destruct (Hh r Hr) as (_ & ic' & f & A' & I' & Rd' & -> & Fd).
      f_equal. apply (arr_uniq ic' ic rank f A'). apply (arr_ext _ _ _ _ A). intros i Hi.
      destruct (in_dec Nat.eq_dec i axes) as [Ia|Ia].
      * apply In_nth with (d := 0) in Ia. destruct Ia as (j & Hj & <-). fold (ax j). fold k in Hj. rewrite Fd by auto.
        symmetry. apply (digit_horner (fun j => g (ax j)) sz k); auto. intros j' Hj'. apply Fg. now apply ax_lt.
      * rewrite (proj1 (IB ic' f A') Rd' i Hi Ia). exact (proj1 (IB ic g A) Rd i Hi Ia).
Qed.
End Reduce.

(** ** Axes *)
Lemma insert_In x l y : In y (insert x l) <-> y = x \/ In y l.
Proof.
  induction l as [|z l IH]; cbn [insert In]; [intuition|]. destruct (x <=? z); cbn [In]; [intuition|]. rewrite IH. intuition.
Qed.
Lemma insert_sorted x l : ~ In x l -> StronglySorted lt l -> StronglySorted lt (insert x l).
Proof.
  induction l as [|z l IH]; intros N S; cbn [insert]; [repeat constructor|].
  inversion S as [|z' l' S' F]; subst. cbn in N. destruct (Nat.leb_spec x z).
  - constructor; auto. constructor; [lia|]. eapply Forall_impl; [|exact F]. cbn. intros; lia.
  - constructor; [apply IH; auto|]. rewrite Forall_forall in *. intros y Hy. apply insert_In in Hy. destruct Hy as [->|Hy]; auto.
Qed.
Lemma sort_In l y : In y (sort_unstable l) <-> In y l.
Proof.
  unfold sort_unstable. induction l as [|x l IH]; [reflexivity|]. cbn [fold_right In]. rewrite insert_In, IH. intuition.
Qed.
Lemma sort_sorted l : NoDup l -> StronglySorted lt (sort_unstable l).
Proof.
  unfold sort_unstable. induction 1 as [|x l N ND IH]; cbn [fold_right]; [constructor|]. apply insert_sorted; auto.
  intros I. apply N. now apply sort_In.
Qed.

Lemma sorted_lt_unique l : forall m, StronglySorted lt l -> StronglySorted lt m -> (forall i, In i l <-> In i m) -> l = m.
Proof.
  induction l as [|x l IH]; intros [|y m] Sl Sm H.
  - reflexivity.
  - destruct (proj2 (H y) (or_introl eq_refl)).
  - destruct (proj1 (H x) (or_introl eq_refl)).
  - inversion Sl as [|? ? Sl' Fl]; inversion Sm as [|? ? Sm' Fm]; subst. rewrite Forall_forall in Fl, Fm.
    assert (x = y) as <-.
    { destruct (proj1 (H x) (or_introl eq_refl)) as [|I]; auto. destruct (proj2 (H y) (or_introl eq_refl)) as [|J]; auto.
      specialize (Fl _ J). specialize (Fm _ I). lia. }
    f_equal. apply IH; auto. intros i. specialize (H i). cbn [In] in H. split; intros I.
    + destruct (proj1 H (or_intror I)) as [<-|]; auto. specialize (Fl _ I). lia.
    + destruct (proj2 H (or_intror I)) as [<-|]; auto. specialize (Fm _ I). lia.
Qed.

Theorem normalize_axes_ok axes rank out : (0 <= rank < 2 ^ 63)%Z -> Forall (fun a => - 2 ^ 63 <= a < 2 ^ 63)%Z axes ->
  (normalize_axes axes rank = Some out <->
   Forall (valid_axis rank) axes /\ NoDup (map (axis_position rank) axes) /\
   StronglySorted lt out /\ (forall i, In i out <-> In i (map (axis_position rank) axes))).
Proof.
  intros Hr Ha. unfold normalize_axes. assert (Sg : forall x, (- 2 ^ 63 <= x < 2 ^ 63)%Z -> signed U64 x = Some x).
  { intros x Hx. apply signed_some. replace (- U64 / 2)%Z with (- 2 ^ 63)%Z by reflexivity. replace (U64 / 2)%Z with (2 ^ 63)%Z by reflexivity. lia. }
  rewrite Sg by lia. cbn [obind].
  set (body := fun (a : Z) (out : list nat) => _).
  assert (B : forall a out, (- 2 ^ 63 <= a < 2 ^ 63)%Z -> body a out =
    if ((- rank <=? a) && (a <? rank))%Z && negb (existsb (Nat.eqb (axis_position rank a)) out) then Some (out ++ [axis_position rank a]) else None).
  { intros a o Hb. unfold body, axis_position. destruct (Z.ltb_spec a 0).
    - rewrite Sg by lia. cbn [obind]. destruct (Z.leb_spec (- rank) a).
      + replace ((a + rank <? 0) || (rank <=? a + rank))%Z with false. 2:{ symmetry. apply orb_false_iff. split; [apply Z.ltb_ge|apply Z.leb_gt]; lia. }
        replace (a <? rank)%Z with true by (symmetry; apply Z.ltb_lt; lia). cbn [andb].
        destruct (existsb _ o); reflexivity.
      + replace ((a + rank <? 0) || (rank <=? a + rank))%Z with true; [reflexivity|]. symmetry. apply orb_true_iff. left. apply Z.ltb_lt. lia.
    - cbn [obind]. replace (- rank <=? a)%Z with true by (symmetry; apply Z.leb_le; lia).
      replace (a <? 0)%Z with false by (symmetry; apply Z.ltb_ge; lia). cbn [orb andb].
      destruct (Z.leb_spec rank a), (Z.ltb_spec a rank); try lia; cbn [andb]; auto.
      destruct (existsb _ o); reflexivity. }
  assert (L : forall acc, NoDup acc -> forall o, for_each axes body acc = Some o <->
    Forall (valid_axis rank) axes /\ NoDup (acc ++ map (axis_position rank) axes) /\ o = acc ++ map (axis_position rank) axes).
  { clear - B Ha. induction axes as [|a l IH]; intros acc Nd o; cbn [for_each map].
    - rewrite app_nil_r. split; [intros [= <-]; auto|intros (_ & _ & ->); auto].
    - apply Forall_cons_iff in Ha. destruct Ha as (Ha & Hl). rewrite B by auto.
      destruct (((- rank <=? a) && (a <? rank))%Z && negb (existsb (Nat.eqb (axis_position rank a)) acc)) eqn:E.
      + apply andb_true_iff in E. destruct E as (E1 & E2). apply andb_true_iff in E1. destruct E1 as (E0 & E1).
        apply Z.leb_le in E0. apply Z.ltb_lt in E1. apply negb_true_iff in E2.
        assert (Ni : ~ In (axis_position rank a) acc). { intros I. assert (X : existsb (Nat.eqb (axis_position rank a)) acc = true); [|congruence].
          apply existsb_exists. eexists. split; eauto. apply Nat.eqb_refl. }
        cbn [obind]. rewrite IH; auto. 2:{ apply (Permutation_NoDup (l := axis_position rank a :: acc)); [apply Permutation_cons_append|constructor; auto]. }
        rewrite <- app_assoc. cbn [app]. rewrite Forall_cons_iff. unfold valid_axis at 2. intuition lia.
      + cbn [obind]. split; [discriminate|]. intros (F & N & _). exfalso. apply Forall_cons_iff in F. destruct F as ((F0 & F1) & _).
        apply andb_false_iff in E. destruct E as [E|E].
        * apply andb_false_iff in E. destruct E as [E|E]; [apply Z.leb_gt in E|apply Z.ltb_ge in E]; lia.
        * apply negb_false_iff, existsb_exists in E. destruct E as (x & I & E). apply Nat.eqb_eq in E. subst x.
          apply NoDup_remove_2 in N. apply N, in_or_app. auto. }
  specialize (L [] (NoDup_nil _)). cbn [app] in L. destruct (for_each axes body []) as [o|] eqn:E; cbn [obind].
  - destruct (proj1 (L o) eq_refl) as (F & N & ->). split.
    + intros [= <-]. split; auto. split; auto. split; [now apply sort_sorted|]. intros i. apply sort_In.
    + intros (_ & _ & S & I). f_equal. apply sorted_lt_unique; auto; [now apply sort_sorted|]. intros i. now rewrite sort_In, I.
  - split; [discriminate|]. intros (F & N & _). discriminate (proj2 (L _) (conj F (conj N eq_refl))).
Qed.

(** ** Splitting the flat input *)
Lemma skipn_skipn {A} n : forall m (l : list A), skipn n (skipn m l) = skipn (n + m) l.
Proof.
  intros m. revert n. induction m as [|m IH]; intros n l; [now rewrite Nat.add_0_r|].
  rewrite Nat.add_succ_r. destruct l as [|x l]; cbn [skipn]; [apply skipn_nil|]. apply IH.
Qed.
Fixpoint cut {T} (v : list T) (inputs : list (string * list nat)) : list (string * (list nat * list T)) :=
  match inputs with
  | [] => []
  | (name, shape) :: rest => (name, (shape, firstn (prod shape) v)) :: cut (skipn (prod shape) v) rest
  end.
Lemma get_inputs_cut {T} (v : list T) inputs :
  get_inputs v inputs = if length v =? list_sum (map (fun i => prod (snd i)) inputs) then Some (cut v inputs) else None.
Proof.
  unfold get_inputs. destruct (Nat.eqb_spec (length v) (list_sum (map (fun i => prod (snd i)) inputs))) as [E|]; [|reflexivity]. cbn [negb].
  set (body := fun (input : string * list nat) (st : nat * list (string * (list nat * list T))) => _).
  assert (G : forall l start acc, start + list_sum (map (fun i => prod (snd i)) l) = length v ->
    exists e, for_each l body (start, acc) = Some (e, acc ++ cut (skipn start v) l)).
  { induction l as [|(name & shape) l IH]; intros start acc H; cbn [map list_sum fold_right snd for_each cut] in *.
    - exists start. now rewrite app_nil_r.
    - fold (list_sum (map (fun i => prod (snd i)) l)) in H. cbn [body].
      destruct (Nat.leb_spec (start + prod shape) (length v)); [|lia]. cbn [guard obind].
      rewrite firstn_length, skipn_length, Nat.min_l by lia. rewrite Nat.eqb_refl. cbn [guard obind].
      destruct (IH (start + prod shape) (acc ++ [(name, (shape, firstn (prod shape) (skipn start v)))])) as (e & Ee); [lia|].
      exists e. rewrite Ee, <- app_assoc. cbn [app]. rewrite skipn_skipn, (Nat.add_comm (prod shape)). reflexivity. }
  destruct (G inputs 0 []) as (e & Ee); [lia|]. rewrite Ee. reflexivity.
Qed.
Theorem get_inputs_ok {T} (v : list T) inputs r : get_inputs v inputs = Some r <->
  map (fun e => (fst e, fst (snd e))) r = inputs /\ Forall (fun e => length (snd (snd e)) = prod (fst (snd e))) r /\
  concat (map (fun e => snd (snd e)) r) = v.
Proof.
  rewrite get_inputs_cut. split.
  - destruct (Nat.eqb_spec (length v) (list_sum (map (fun i => prod (snd i)) inputs))) as [E|]; [|discriminate]. intros [= <-].
    revert v E. induction inputs as [|(name & shape) l IH]; intros v E; cbn [map list_sum fold_right snd cut fst concat] in *.
    + destruct v; [auto|discriminate].
    + fold (list_sum (map (fun i => prod (snd i)) l)) in E. destruct (IH (skipn (prod shape) v)) as (A & B & C).
      { rewrite skipn_length. lia. }
      rewrite A, C, firstn_skipn. split; auto. split; auto. constructor; auto. cbn [fst snd]. rewrite firstn_length. lia.
  - intros (<- & F & <-). revert F. induction r as [|(name & (shape & d)) r IH]; intros F; [reflexivity|].
    apply Forall_cons_iff in F. destruct F as (Fd & F). cbn [fst snd] in Fd. specialize (IH F).
    cbn [map concat fst snd cut list_sum fold_right] in *. rewrite app_length, <- Fd.
    rewrite firstn_app, Nat.sub_diag, firstn_O, app_nil_r, firstn_all, skipn_app, Nat.sub_diag, skipn_all, skipn_O. cbn [app].
    fold (list_sum (map (fun i => prod (snd i)) (map (fun e : string * (list nat * list T) => (fst e, fst (snd e))) r))).
    destruct (Nat.eqb_spec (length (concat (map (fun e : string * (list nat * list T) => snd (snd e)) r)))
      (list_sum (map (fun i => prod (snd i)) (map (fun e : string * (list nat * list T) => (fst e, fst (snd e))) r)))) as [E|]; [|discriminate].
    rewrite E, Nat.eqb_refl. injection IH as IH. now rewrite IH.
Qed.
Theorem get_inputs_size {T} (v : list T) inputs :
  (exists r, get_inputs v inputs = Some r) <-> length v = list_sum (map (fun i => prod (snd i)) inputs).
Proof.
  rewrite get_inputs_cut. destruct (Nat.eqb_spec (length v) (list_sum (map (fun i => prod (snd i)) inputs))); split; intros H; eauto; try easy.
  destruct H as (? & H). discriminate H.
Qed.

(** ** Reshape *)
Theorem flatten_ok shape axis out : onnx_flatten shape axis = Some out ->
  axis <= length shape /\ length out = 2 /\ prod out = prod shape.
Proof.
  unfold onnx_flatten. destruct (Nat.ltb_spec (length shape) axis); [discriminate|]. intros [= <-]. split; auto. split; auto.
  assert (P : forall a b, prod (a ++ b) = prod a * prod b).
  { unfold prod. induction a as [|x a IH]; intros b; cbn [fold_right app]; [lia|]. rewrite IH. lia. }
  rewrite <- (firstn_skipn axis shape) at 3. rewrite P. cbn. fold (prod (firstn axis shape)) (prod (skipn axis shape)). lia.
Qed.

Lemma zprod_positive l : Forall (fun d => 0 < d)%Z l -> (0 < zprod l)%Z.
Proof. induction 1 as [|d l Hd _ IH]; cbn; [lia|]. fold (zprod l). nia. Qed.

Definition knowns (shape : list Z) : list Z := filter (fun d => negb (d =? -1)%Z) shape.
Definition holes (shape : list Z) : nat := length (filter (Z.eqb (-1)) shape).
Lemma resolves_iff size shape out :
  resolves size shape out <->
  Forall (fun d => 0 < d \/ d = -1)%Z shape /\ holes shape <= 1 /\
  exists h, (0 <= h)%Z /\ out = map (fun d => if (d =? -1)%Z then h else d) shape /\
    size = (zprod (knowns shape) * if (holes shape =? 0)%nat then 1 else h)%Z.
Proof.
  unfold resolves, holes, knowns. revert size out. induction shape as [|d shape IH]; intros size out.
  - cbn. split.
    + intros (F & _ & E). inversion F; subst. split; auto. split; auto. exists 0%Z. cbn. repeat split; lia.
    + intros (_ & _ & h & Hh & -> & ->). repeat split; auto.
  - destruct (Z.eq_dec d (-1)) as [->|Nd].
    + cbn [filter Z.eqb Pos.eqb negb map length]. split.
      * intros (F & H1 & E). inversion F as [|? o ? out' Ho F']; subst. destruct Ho as [(? & _)|(_ & Ho)]; [lia|].
        assert (H0 : length (filter (Z.eqb (-1)) shape) = 0) by lia.
        destruct (proj1 (IH (zprod out') out')) as (A & _ & h & _ & B & C); [repeat split; auto; lia|].
        split; [constructor; auto|]. split; auto. exists o. split; auto. rewrite H0 in C. cbn [Nat.eqb] in *.
        assert (M : forall a b, map (fun d => if (d =? -1)%Z then a else d) shape = map (fun d => if (d =? -1)%Z then b else d) shape).
        { intros a b. apply map_ext_in. intros x Hx. destruct (Z.eqb_spec x (-1)) as [->|]; auto. exfalso.
          assert (X : In (-1)%Z (filter (Z.eqb (-1)) shape)) by (apply filter_In; auto).
          destruct (filter (Z.eqb (-1)) shape); [destruct X|discriminate]. }
        split; [rewrite B; f_equal; apply M|]. cbn [zprod fold_right]. fold (zprod out'). rewrite C. ring.
      * intros (F & H1 & h & Hh & -> & ->). apply Forall_cons_iff in F. destruct F as (_ & F).
        assert (H0 : length (filter (Z.eqb (-1)) shape) = 0) by lia. cbn [Nat.eqb].
        destruct (proj2 (IH (zprod (filter (fun d => negb (d =? -1)%Z) shape)) (map (fun d => if (d =? -1)%Z then h else d) shape))) as (A & _ & C).
        { split; auto. split; [lia|]. exists h. split; auto. split; auto. rewrite H0. cbn. ring. }
        split; [constructor; auto|]. split; auto. cbn [zprod fold_right]. fold (zprod (map (fun d => if (d =? -1)%Z then h else d) shape)).
        rewrite C. ring.
    + cbn [filter map]. destruct (Z.eqb_spec (-1) d) as [|_]; [lia|]. destruct (Z.eqb_spec d (-1)) as [|_]; [lia|]. cbn [negb].
      split.
      * intros (F & H1 & E). inversion F as [|? o ? out' Ho F']; subst. destruct Ho as [(? & ->)|(? & Ho)]; [|lia].
        destruct (proj1 (IH (zprod out') out')) as (A & _ & h & Hh & B & C); [repeat split; auto|].
        split; [constructor; auto|]. split; auto. exists h. split; auto. split; [now rewrite B|].
        cbn [zprod fold_right]. fold (zprod out') (zprod (filter (fun d => negb (d =? -1)%Z) shape)). rewrite C. ring.
      * intros (F & H1 & h & Hh & -> & ->). apply Forall_cons_iff in F. destruct F as (Fd & F).
        destruct (proj2 (IH _ (map (fun d => if (d =? -1)%Z then h else d) shape)) (conj F (conj H1 (ex_intro _ h (conj Hh (conj eq_refl eq_refl)))))) as (A & _ & C).
        split; [constructor; auto; lia|]. split; auto. cbn [zprod fold_right]. fold (zprod (map (fun d => if (d =? -1)%Z then h else d) shape)) (zprod (filter (fun d => negb (d =? -1)%Z) shape)).
        rewrite C. ring.
Qed.

Lemma reshape_loop shape : forall acc (m : bool) r, (0 < acc)%Z ->
  Forall (fun d => 0 < d \/ d = -1)%Z shape -> (acc * zprod (knowns shape) < U64)%Z ->
  for_each shape (fun d (st : Z * bool) =>
    let (acc, minus_one) := st in
    if (d =? -1)%Z then (if minus_one then None else Some (acc, true))
    else if (d <=? 0)%Z then None
    else let* acc := unsigned U64 (acc * d) in Some (acc, minus_one)) (acc, m) = r ->
  r = if (holes shape + (if m then 1 else 0) <=? 1)%nat then Some (acc * zprod (knowns shape), m || negb (holes shape =? 0)%nat)%Z else None.
Proof.
  induction shape as [|d shape IH]; intros acc m r Ha F B E; cbn [for_each] in E.
  - cbn in *. subst r. rewrite orb_false_r, Z.mul_1_r. now destruct m.
  - apply Forall_cons_iff in F. destruct F as (Fd & F). unfold knowns, holes in *. cbn [filter] in *.
    rewrite (Z.eqb_sym (-1) d). destruct (Z.eqb_spec d (-1)) as [->|Nd]; cbn [negb] in *.
    + destruct m; cbn [obind] in E.
      * subst r. cbn [length]. now rewrite Nat.add_1_r.
      * apply IH in E; auto. rewrite E. cbn [length orb Nat.eqb negb]. rewrite Nat.add_0_r, Nat.add_1_r. reflexivity.
    + destruct (Z.leb_spec d 0); [lia|]. cbn [zprod fold_right] in *. fold (zprod (filter (fun d => negb (d =? -1)%Z) shape)) in *.
      assert (P : (0 < zprod (filter (fun d => negb (d =? -1)%Z) shape))%Z).
      { apply zprod_positive. apply Forall_forall. intros x Hx. apply filter_In in Hx. destruct Hx as (I & N).
        rewrite Forall_forall in F. destruct (F x I) as [ | -> ]; auto. discriminate. }
      rewrite unsigned_some in E by nia. cbn [obind] in E. apply IH in E; auto; [|nia|nia].
      rewrite E. now rewrite Z.mul_assoc.
Qed.
Lemma reshape_bad shape : forall st, ~ Forall (fun d => 0 < d \/ d = -1)%Z shape ->
  for_each shape (fun d (st : Z * bool) =>
    let (acc, minus_one) := st in
    if (d =? -1)%Z then (if minus_one then None else Some (acc, true))
    else if (d <=? 0)%Z then None
    else let* acc := unsigned U64 (acc * d) in Some (acc, minus_one)) st = None.
Proof.
  induction shape as [|d shape IH]; intros (acc & m) N; [destruct N; constructor|]. cbn [for_each].
  destruct (Z.eqb_spec d (-1)) as [->|Nd].
  - destruct m; [reflexivity|]. cbn [obind]. apply IH. intros F. apply N. constructor; auto.
  - destruct (Z.leb_spec d 0); [reflexivity|]. destruct (unsigned U64 (acc * d)); [|reflexivity]. cbn [obind].
    apply IH. intros F. apply N. constructor; auto.
Qed.
Theorem reshape_ok size shape out : (0 <= size)%Z -> (zprod (filter (fun d => negb (d =? -1)%Z) shape) < U64)%Z ->
  (infer_reshape_shape size shape = Some out <-> resolves size shape out).
Proof.
  intros Hs B. rewrite resolves_iff. unfold infer_reshape_shape.
  destruct (Forall_dec (fun d => 0 < d \/ d = -1)%Z) with (l := shape) as [F|F].
  { intros x. destruct (Z_lt_dec 0 x), (Z.eq_dec x (-1)); auto. right. lia. }
  2:{ rewrite reshape_bad by auto. cbn [obind]. split; [discriminate|]. intros (X & _). contradiction. }
  rewrite (reshape_loop shape 1 false _ ltac:(lia) F) by (auto; unfold knowns; lia).
  rewrite Nat.add_0_r, Z.mul_1_l. cbn [orb]. fold (knowns shape) in *.
  assert (P : (0 < zprod (knowns shape))%Z).
  { apply zprod_positive. apply Forall_forall. intros x Hx. apply filter_In in Hx. destruct Hx as (I & N).
    rewrite Forall_forall in F. destruct (F x I) as [ | -> ]; auto. discriminate. }
  destruct (Nat.leb_spec (holes shape) 1) as [H1|H1]; cbn [obind].
  2:{ split; [discriminate|]. intros (_ & X & _). lia. }
  destruct (Nat.eqb_spec (holes shape) 0) as [H0|H0]; cbn [negb andb].
  - destruct (Z.eqb_spec (zprod (knowns shape)) size) as [E|E]; cbn [negb].
    + split.
      * intros [= <-]. split; auto. split; auto. exists (size / zprod (knowns shape))%Z. split; [apply Z.div_pos; lia|]. split; auto. lia.
      * intros (_ & _ & h & _ & -> & _). f_equal. apply map_ext_in. intros x Hx. destruct (Z.eqb_spec x (-1)) as [->|]; auto. exfalso.
        assert (X : In (-1)%Z (filter (Z.eqb (-1)) shape)) by (apply filter_In; auto).
        unfold holes in H0. destruct (filter (Z.eqb (-1)) shape); [destruct X|discriminate].
    + split; [discriminate|]. intros (_ & _ & h & _ & _ & X). lia.
  - destruct (Z.eqb_spec (size mod zprod (knowns shape)) 0) as [E|E]; cbn [negb].
    + split.
      * intros [= <-]. split; auto. split; auto. exists (size / zprod (knowns shape))%Z. split; [apply Z.div_pos; lia|]. split; auto.
        apply Z.div_exact; lia.
      * intros (_ & _ & h & _ & -> & X). f_equal. apply map_ext. intros x. destruct (x =? -1)%Z; auto. rewrite X, Z.mul_comm. apply Z.div_mul. lia.
    + split; [discriminate|]. intros (_ & _ & h & _ & _ & X). destruct E. rewrite X, Z.mul_comm. apply Z_mod_mult.
Qed.

Lemma map_get_in {T} (l : list (string * T)) name x : NoDup (map fst l) -> In (name, x) l -> map_get l name = Some x.
Proof.
  intros N I. unfold map_get.
  assert (N' : NoDup (map fst (rev l))) by (rewrite map_rev; apply NoDup_rev; exact N).
  apply in_rev in I. revert N' I. generalize (rev l). clear. induction l as [|(m & y) l IH]; intros N I; [destruct I|].
  cbn [find fst]. destruct (String.eqb_spec m name) as [->|Nm].
  - destruct I as [[= ->]|I]; [reflexivity|]. cbn in N. apply NoDup_cons_iff in N. destruct N as (N & _). destruct N.
    apply in_map_iff. exists (name, x). auto.
  - destruct I as [[= ? ?]|I]; [congruence|]. apply IH; auto. cbn in N. now apply NoDup_cons_iff in N.
Qed.
Lemma skipn_past {A} (a b : list A) : skipn (length a) (a ++ b) = b.
Proof. induction a; auto. Qed.
Theorem get_inputs_get {T} (v : list T) before name shape after : NoDup (map fst (before ++ (name, shape) :: after)) ->
  forall r, get_inputs v (before ++ (name, shape) :: after) = Some r ->
  map_get r name = Some (shape, firstn (prod shape) (skipn (list_sum (map (fun i => prod (snd i)) before)) v)).
Proof.
  intros N r E. pose proof (proj1 (get_inputs_ok v _ r) E) as (M & _ & _).
  rewrite get_inputs_cut in E. destruct (_ =? _); [|discriminate]. injection E as <-.
  apply map_get_in.
  - rewrite <- M, map_map in N. exact N.
  - clear. revert v. induction before as [|(m & s) before IH]; intros v; cbn [app cut map list_sum fold_right snd In].
    + now left.
    + right. fold (list_sum (map (fun i => prod (snd i)) before)). rewrite (Nat.add_comm (prod s)), <- skipn_skipn. apply IH.
Qed.
