(** Concat, Tile, Pad and Expand. *)
From Coq Require Import List Arith Bool ZArith Lia.
From Verif Require Import Base.Array Spec.Shapes Spec.Tensors Model.Shapes Model.DataMovement Proofs.Shapes Proofs.Tensors Proofs.DataMovement.
Import ListNotations.
Local Open Scope list_scope.

(** *** Row-major positions of concatenated coordinates *)
Lemma prod_app a b : prod (a ++ b) = prod a * prod b.
Proof. unfold prod. rewrite fold_right_app. induction a as [|x a IH]; cbn [fold_right]; [lia|]. rewrite IH. lia. Qed.
Lemma prod_cons d s : prod (d :: s) = d * prod s.
Proof. reflexivity. Qed.
Lemma rm_acc : forall b s acc, length b = length s ->
  fold_left (fun acc cs => acc * snd cs + fst cs) (combine b s) acc = acc * prod s + row_major b s.
Proof.
  induction b as [|x b IH]; intros [|y s] acc L; cbn in L; try discriminate; [cbn; lia|].
  cbn [combine fold_left fst snd]. rewrite IH by lia. unfold row_major at 2. cbn [combine fold_left fst snd].
  rewrite (IH s (0 * y + x)) by lia. rewrite prod_cons. nia.
Qed.
Lemma row_major_app a b A B : length a = length A -> length b = length B ->
  row_major (a ++ b) (A ++ B) = row_major a A * prod B + row_major b B.
Proof.
  intros La Lb. unfold row_major at 1.
  assert (E : combine (a ++ b) (A ++ B) = combine a A ++ combine b B).
  { clear Lb. revert A La. induction a as [|x a IH]; intros [|y A] L; cbn in *; try discriminate; auto. now rewrite IH by lia. }
  rewrite E, fold_left_app. rewrite rm_acc by auto. reflexivity.
Qed.
Lemma row_major_cons i d b B : length b = length B -> row_major (i :: b) (d :: B) = i * prod B + row_major b B.
Proof.
  intros L. change (i :: b) with ([i] ++ b). change (d :: B) with ([d] ++ B). rewrite row_major_app by auto. reflexivity.
Qed.
Lemma in_range_app a b A B : length a = length A -> in_range (a ++ b) (A ++ B) <-> in_range a A /\ in_range b B.
Proof.
  intros L. unfold in_range. split.
  - revert A L. induction a as [|x a IH]; intros [|y A] L H; cbn in *; try discriminate; [auto|].
    inversion H; subst. destruct (IH A) as (? & ?); [lia|auto|]. auto.
  - intros (H & H'). now apply Forall2_app.
Qed.
Lemma in_range_cons i d b B : in_range (i :: b) (d :: B) <-> i < d /\ in_range b B.
Proof. unfold in_range. split; [intros H; inversion H; auto|intros (? & ?); constructor; auto]. Qed.
Lemma split_at (l : list nat) axis : axis < length l -> l = firstn axis l ++ nth axis l 0 :: skipn (S axis) l.
Proof. intros H. exact (eq_sym (put_same axis 0 l H)). Qed.

(** *** Concatenated blocks *)
Lemma concat_uniform {A} (f : nat -> list A) r : forall n o j, (forall i, i < n -> length (f i) = r) -> o < n -> j < r ->
  nth_error (concat (map f (seq 0 n))) (o * r + j) = nth_error (f o) j.
Proof.
  intros n o j L Ho Hj. enough (G : forall n s o, (forall i, s <= i < s + n -> length (f i) = r) -> o < n ->
    nth_error (concat (map f (seq s n))) (o * r + j) = nth_error (f (s + o)) j) by (apply (G n 0 o); auto; intros; apply L; lia).
  clear - Hj. induction n as [|n IH]; intros s o L Ho; [lia|]. cbn [seq map concat].
  destruct o as [|o].
  - cbn. rewrite nth_error_app1 by (rewrite L; lia). now rewrite Nat.add_0_r.
  - rewrite nth_error_app2 by (rewrite L; lia). rewrite (L s) by lia. replace (S o * r + j - r) with (o * r + j) by lia.
    rewrite IH by (try lia; intros; apply L; lia). f_equal. f_equal. lia.
Qed.
Lemma concat_uniform_length {A} (f : nat -> list A) r n : (forall i, i < n -> length (f i) = r) ->
  length (concat (map f (seq 0 n))) = n * r.
Proof.
  intros L. enough (G : forall n s, (forall i, s <= i < s + n -> length (f i) = r) -> length (concat (map f (seq s n))) = n * r)
    by (apply G; intros; apply L; lia).
  clear. induction n as [|n IH]; intros s L; cbn; auto. rewrite app_length, L by lia. rewrite IH by (intros; apply L; lia). lia.
Qed.
Lemma concat_parts {A B} (f : A -> list B) before x after j : j < length (f x) ->
  nth_error (concat (map f (before ++ x :: after))) (list_sum (map (fun a => length (f a)) before) + j) = nth_error (f x) j.
Proof.
  intros Hj. induction before as [|b before IH]; cbn [map concat app list_sum fold_right].
  - cbn. now rewrite nth_error_app1.
  - rewrite nth_error_app2 by lia. change (fold_right Nat.add 0 ?l) with (list_sum l).
    replace (length (f b) + list_sum (map (fun a => length (f a)) before) + j - length (f b))
      with (list_sum (map (fun a => length (f a)) before) + j) by lia. exact IH.
Qed.
Lemma concat_length {A B} (f : A -> list B) l : length (concat (map f l)) = list_sum (map (fun a => length (f a)) l).
Proof. induction l as [|a l IH]; cbn; auto. rewrite app_length, IH. reflexivity. Qed.
Lemma list_sum_mul {A} (f : A -> nat) k l : list_sum (map (fun a => f a * k) l) = list_sum (map f l) * k.
Proof.
  induction l as [|a l IH]; cbn [map list_sum fold_right]; auto. change (fold_right Nat.add 0 ?m) with (list_sum m). rewrite IH. lia.
Qed.
Lemma nth_error_chunk {A} (l : list A) s n j : j < n -> nth_error (firstn n (skipn s l)) j = nth_error l (s + j).
Proof.
  intros H. assert (E : forall (l : list A) n j, j < n -> nth_error (firstn n l) j = nth_error l j).
  { clear. induction l as [|x l IH]; intros [|n] j H; try lia; auto. destruct j; cbn; auto. apply IH. lia. }
  rewrite E by auto. clear. revert l. induction s as [|s IH]; intros l; auto. destruct l as [|x l]; cbn; auto. now destruct j.
Qed.
Lemma chunk_length {A} (l : list A) s n : s + n <= length l -> length (firstn n (skipn s l)) = n.
Proof. intros H. rewrite firstn_length, skipn_length. lia. Qed.

(** *** Concat *)
(** Same shape but on [axis]. *)
Definition joins (axis : nat) (s t : list nat) : Prop := length s = length t /\ put axis 0 s = put axis 0 t.
Lemma joins_remove axis s t : axis < length t -> (remove_axis axis s = remove_axis axis t /\ length s = length t) <-> joins axis s t.
Proof.
  intros Ha. unfold joins, remove_axis, put. split.
  - intros (E & L). split; auto.
    assert (E1 : firstn axis s = firstn axis t).
    { apply (f_equal (firstn axis)) in E. rewrite !firstn_app, !firstn_firstn, !firstn_length in E.
      replace (axis - Nat.min axis (length s)) with 0 in E by lia. replace (axis - Nat.min axis (length t)) with 0 in E by lia.
      cbn in E. rewrite !app_nil_r, Nat.min_id in E. exact E. }
    rewrite E1 in E. apply app_inv_head in E. now rewrite E1, E.
  - intros (L & E). split; auto.
    assert (E1 : firstn axis s = firstn axis t).
    { apply (f_equal (firstn axis)) in E. rewrite !firstn_app, !firstn_firstn, !firstn_length in E.
      replace (axis - Nat.min axis (length s)) with 0 in E by lia. replace (axis - Nat.min axis (length t)) with 0 in E by lia.
      cbn in E. rewrite !app_nil_r, Nat.min_id in E. exact E. }
    rewrite E1 in E |- *. apply app_inv_head in E. apply (f_equal (@tl nat)) in E. cbn [tl] in E. now rewrite E.
Qed.
Lemma joins_parts axis s t : axis < length t -> joins axis s t -> firstn axis s = firstn axis t /\ skipn (S axis) s = skipn (S axis) t.
Proof.
  intros Ha (L & E). unfold put in E.
  assert (E1 : firstn axis s = firstn axis t).
  { apply (f_equal (firstn axis)) in E. rewrite !firstn_app, !firstn_firstn, !firstn_length in E.
    replace (axis - Nat.min axis (length s)) with 0 in E by lia. replace (axis - Nat.min axis (length t)) with 0 in E by lia.
    cbn in E. rewrite !app_nil_r, Nat.min_id in E. exact E. }
  split; auto. rewrite E1 in E. apply app_inv_head in E. apply (f_equal (@tl nat)) in E. exact E.
Qed.
Theorem concatenate_ok {T} axis (xs : list (tensor T)) first : hd_error xs = Some first -> axis < length (dims first) ->
  Forall well_formed xs -> Forall (fun x => joins axis (dims x) (dims first)) xs ->
  exists y, concatenate axis xs = Some y /\ well_formed y /\ concatenated axis xs y /\ length (dims y) = length (dims first) /\
    joins axis (dims y) (dims first).
Proof.
  intros Hh Ha W J. destruct xs as [|f xs']; [discriminate|]. injection Hh as ->. set (xs := first :: xs') in *.
  unfold concatenate, xs at 1. cbv beta iota. fold xs. rewrite (proj2 (Nat.ltb_lt _ _) Ha). cbn [guard obind]. cbv beta iota.
  assert (G : forallb (fun a => if list_eq_dec Nat.eq_dec (remove_axis axis (dims a)) (remove_axis axis (dims first))
      then length (dims a) =? length (dims first) else false) xs = true).
  { apply forallb_forall. intros x Hx. rewrite Forall_forall in J. specialize (J x Hx). apply joins_remove in J; auto.
    destruct J as (E & L). destruct (list_eq_dec _ _ _); [now apply Nat.eqb_eq|contradiction]. }
  rewrite G. cbn [guard obind]. set (A := firstn axis (dims first)). set (B := skipn (S axis) (dims first)).
  set (D := list_sum (map (fun a => nth axis (dims a) 0) xs)).
  set (row := fun a : tensor T => prod (skipn axis (dims a))). set (outer := prod A).
  assert (Lf : length A = axis) by (unfold A; rewrite firstn_length; lia).
  assert (Dx : forall x, In x xs -> dims x = A ++ axis_dim axis x :: B /\ row x = axis_dim axis x * prod B /\
      length (flat x) = outer * row x).
  { intros x Hx. rewrite Forall_forall in J, W. specialize (J x Hx). specialize (W x Hx).
    pose proof J as (Lx & _). destruct (joins_parts _ _ _ Ha J) as (E1 & E2).
    assert (E : dims x = A ++ axis_dim axis x :: B).
    { unfold A, B. rewrite <- E1, <- E2. apply split_at. lia. }
    split; auto.
    assert (Er : row x = axis_dim axis x * prod B).
    { unfold row. rewrite E. rewrite skipn_app, Lf, Nat.sub_diag. rewrite skipn_all2 by lia. reflexivity. }
    split; auto. unfold well_formed in W. rewrite W, E, prod_app, prod_cons, Er. reflexivity. }
  set (chunk := fun o (a : tensor T) => firstn (row a) (skipn (o * row a) (flat a))).
  assert (Lc : forall o x, o < outer -> In x xs -> length (chunk o x) = row x).
  { intros o x Ho Hx. apply chunk_length. destruct (Dx x Hx) as (_ & _ & ->). nia. }
  assert (Lrow : forall l, incl l xs -> list_sum (map row l) = list_sum (map (axis_dim axis) l) * prod B).
  { intros l Hl. rewrite <- list_sum_mul. f_equal. apply map_ext_in. intros x Hx. now apply Dx, Hl. }
  assert (Lo : forall o, o < outer -> length (concat (map (chunk o) xs)) = D * prod B).
  { intros o Ho. rewrite concat_length. rewrite (map_ext_in _ row) by (intros; auto). apply Lrow. apply incl_refl. }
  set (data := concat (map (fun o => concat (map (chunk o) xs)) (seq 0 outer))).
  change (concat (map (fun o => concat (map (fun a => firstn (prod (skipn axis (dims a))) (skipn (o * prod (skipn axis (dims a))) (flat a))) xs)) (seq 0 outer)))
    with data.
  exists {| dims := A ++ D :: B; flat := data |}. split; [reflexivity|].
  assert (Ld : length (A ++ D :: B) = length (dims first)).
  { rewrite app_length. cbn [length]. rewrite Lf. unfold B. rewrite skipn_length. lia. }
  assert (Jy : joins axis (A ++ D :: B) (dims first)).
  { split; [exact Ld|]. unfold put. rewrite firstn_app, Lf, Nat.sub_diag. cbn [firstn]. rewrite app_nil_r.
    rewrite firstn_all2 by lia. rewrite skipn_app, Lf. replace (S axis - axis) with 1 by lia.
    rewrite (skipn_all2 A) by lia. reflexivity. }
  split; [unfold well_formed; cbn [dims flat]; unfold data; rewrite (concat_uniform_length _ (D * prod B)) by auto; now rewrite prod_app, prod_cons|].
  split; [|split; [exact Ld|exact Jy]].
  split; [cbn [dims]; lia|]. split.
  { unfold axis_dim at 1. cbn [dims]. rewrite app_nth2 by lia. rewrite Lf, Nat.sub_diag. reflexivity. }
  intros before x after E. assert (Hx : In x xs) by (rewrite E; apply in_elt).
  cbn [dims]. rewrite Forall_forall in J. pose proof (J x Hx) as (L1 & E1). destruct Jy as (L2 & E2).
  split; [congruence|]. split; [congruence|]. intros c R. destruct (Dx x Hx) as (Ed & Er & Ex).
  rewrite (elem_in x c R). pose proof (in_range_length _ _ R) as Lcx.
  assert (Ec : c = firstn axis c ++ nth axis c 0 :: skipn (S axis) c) by (apply split_at; lia).
  set (a := firstn axis c) in *. set (i := nth axis c 0) in *. set (b := skipn (S axis) c) in *.
  assert (La : length a = axis) by (unfold a; rewrite firstn_length; lia).
  assert (R' : in_range a A /\ i < axis_dim axis x /\ in_range b B).
  { rewrite Ec, Ed in R. apply in_range_app in R; [|lia]. destruct R as (? & R). apply in_range_cons in R. tauto. }
  destruct R' as (Ra & Ri & Rb). pose proof (in_range_length _ _ Rb) as Lb.
  set (off := list_sum (map (axis_dim axis) before)).
  assert (Es : shift axis off c = a ++ (i + off) :: b) by reflexivity.
  assert (Hoff : off + axis_dim axis x <= D).
  { unfold D, off. rewrite E, map_app. cbn [map]. fold (axis_dim axis x). rewrite list_sum_app. cbn [list_sum fold_right].
    unfold axis_dim. lia. }
  assert (Ry : in_range (shift axis off c) (A ++ D :: B)).
  { rewrite Es. apply in_range_app; [lia|]. split; auto. apply in_range_cons. split; [lia|auto]. }
  rewrite (elem_in {| dims := A ++ D :: B; flat := data |} _ Ry). cbn [dims flat]. rewrite Es, Ec, Ed.
  rewrite !row_major_app by (cbn [length]; lia). rewrite !row_major_cons by auto. rewrite !prod_cons.
  pose proof (row_major_lt _ _ Ra) as Pa. pose proof (row_major_lt _ _ Rb) as Pb. fold outer in Pa.
  unfold data. rewrite concat_uniform; auto.
  2:{ assert (i + off < D) by lia. nia. }
  set (o := row_major a A) in *.
  replace ((i + off) * prod B + row_major b B)
    with (list_sum (map (fun a => length (chunk o a)) before) + (i * prod B + row_major b B)).
  2:{ assert (Sb : list_sum (map (fun a => length (chunk o a)) before) = off * prod B).
      { rewrite (map_ext_in _ row); [|intros z Hz; apply Lc; auto; rewrite E; apply in_or_app; auto].
        apply Lrow. intros z Hz. rewrite E. apply in_or_app. auto. }
      rewrite Sb. nia. }
  rewrite E. rewrite concat_parts.
  2:{ rewrite Lc by auto. rewrite Er. nia. }
  unfold chunk. rewrite nth_error_chunk by (rewrite Er; nia). rewrite Er. now replace (row_major a A * (axis_dim axis x * prod B) + (i * prod B + row_major b B)) with (o * (axis_dim axis x * prod B) + (i * prod B + row_major b B)) by reflexivity.
Qed.
