(** The convolution sums. *)
From Coq Require Import List Arith Bool ZArith Lia.
From Verif Require Model.Builder.
From Verif Require Import Base.Array Spec.Numbers Spec.Shapes Spec.Tensors Spec.Selection Spec.Conv
  Model.Shapes Model.DataMovement Model.Conv Proofs.Shapes Proofs.Tensors.
From Verif Require Proofs.Selection.
Import ListNotations.
Local Open Scope Z_scope.

(** *** Lists *)
Lemma nth_error_list_prod {A B} (l : list A) (m : list B) i j : (j < length m)%nat ->
  nth_error (list_prod l m) (i * length m + j) =
  match nth_error l i, nth_error m j with Some a, Some b => Some (a, b) | _, _ => None end.
Proof.
  intros Hj. revert i. induction l as [|a l IH]; intros i.
  - cbn. destruct i; destruct (_ + j)%nat; reflexivity.
  - cbn [list_prod]. destruct i as [|i].
    + cbn [nth_error Nat.mul Nat.add]. rewrite nth_error_app1 by now rewrite map_length. rewrite nth_error_map.
      destruct (nth_error m j); reflexivity.
    + rewrite nth_error_app2 by (rewrite map_length; lia). rewrite map_length.
      replace (S i * length m + j - length m)%nat with (i * length m + j)%nat by lia. apply IH.
Qed.
Lemma omap_map {A B} (f : A -> option B) (g : A -> B) l : (forall a, In a l -> f a = Some (g a)) -> omap f l = Some (map g l).
Proof.
  induction l as [|a l IH]; intros H; [reflexivity|]. cbn [omap map]. rewrite H by now left. cbn [obind].
  rewrite IH by (intros; apply H; now right). reflexivity.
Qed.
Lemma combine_map2 {A B C} (f : A -> B) (g : A -> C) l : combine (map f l) (map g l) = map (fun a => (f a, g a)) l.
Proof. induction l; cbn; congruence. Qed.
Lemma list_prod_map {A B C D} (f : A -> C) (g : B -> D) l m :
  list_prod (map f l) (map g m) = map (fun ab => (f (fst ab), g (snd ab))) (list_prod l m).
Proof.
  induction l as [|a l IH]; [reflexivity|]. cbn [map list_prod]. rewrite IH, map_app, !map_map. reflexivity.
Qed.
Definition sumZ (l : list Z) : Z := fold_right Z.add 0 l.
Lemma sumZ_app l m : sumZ (l ++ m) = sumZ l + sumZ m.
Proof. unfold sumZ. induction l; cbn [app fold_right]; lia. Qed.
Lemma sumZ_prod {A B} (f : A -> B -> Z) l m :
  sumZ (map (fun ab => f (fst ab) (snd ab)) (list_prod l m)) = sumZ (map (fun a => sumZ (map (f a) m)) l).
Proof.
  induction l as [|a l IH]; [reflexivity|]. cbn [list_prod map]. rewrite map_app, sumZ_app, IH, map_map. reflexivity.
Qed.
Lemma sumZ_zero {A} (f : A -> Z) l : (forall a, In a l -> f a = 0) -> sumZ (map f l) = 0.
Proof. unfold sumZ. induction l as [|a l IH]; intros H; [reflexivity|]. cbn. rewrite H by now left. rewrite IH by (intros; apply H; now right). reflexivity. Qed.
Lemma sumZ_ext {A} (f g : A -> Z) l : (forall a, In a l -> f a = g a) -> sumZ (map f l) = sumZ (map g l).
Proof. intros H. f_equal. now apply map_ext_in. Qed.
(** A sum over part of a range, when the rest is zero *)
Lemma sum_part f n a k : (a + k <= n)%nat -> (forall i, (i < n)%nat -> (i < a)%nat \/ (a + k <= i)%nat -> f i = 0) ->
  sumZ (map f (seq a k)) = sum_to n f.
Proof.
  intros L H. unfold sum_to. change (sumZ (map f (seq a k)) = sumZ (map f (seq 0 n))).
  replace n with (a + k + (n - a - k))%nat by lia. rewrite !seq_app, !map_app, !sumZ_app. cbn [Nat.add].
  rewrite (sumZ_zero f (seq 0 a)) by (intros i Hi; apply in_seq in Hi; apply H; lia).
  rewrite (sumZ_zero f (seq (a + k) _)) by (intros i Hi; apply in_seq in Hi; apply H; lia). lia.
Qed.
Lemma sum_to_ext n f g : (forall i, (i < n)%nat -> f i = g i) -> sum_to n f = sum_to n g.
Proof. intros H. unfold sum_to. apply sumZ_ext. intros i Hi. apply in_seq in Hi. apply H. lia. Qed.
Lemma sum_to_zero n f : (forall i, (i < n)%nat -> f i = 0) -> sum_to n f = 0.
Proof. intros H. apply sumZ_zero. intros i Hi. apply in_seq in Hi. apply H. lia. Qed.
Lemma sum_to_S n f : sum_to (S n) f = sum_to n f + f n.
Proof. unfold sum_to. rewrite seq_S, map_app. change (sumZ (map f (seq 0 n) ++ [f n]) = sumZ (map f (seq 0 n)) + f n).
  rewrite sumZ_app. unfold sumZ at 2. cbn. lia. Qed.

(** *** The windows *)
Definition lo (io : Z) : nat := Z.to_nat (Z.max 0 io).
Definition klo (io : Z) : nat := Z.to_nat (Z.max 0 (- io)).
Definition len (k s : nat) (io : Z) : nat := Z.to_nat (Z.min (io + Z.of_nat k) (Z.of_nat s) - Z.max 0 io).
Definition touches (k s : nat) (io : Z) : Prop := - Z.of_nat k <= io <= Z.of_nat s.

Lemma image_range_in k s io : touches k s io -> image_range k s io = Some (seq (lo io) (len k s io)).
Proof.
  unfold touches, image_range, i32_to_usize. intros H.
  replace (io + Z.of_nat k mod 2 + - (Z.of_nat k mod 2)) with io by lia.
  destruct (Z.ltb_spec (Z.max 0 io) 0); [lia|]. cbn [obind].
  destruct (Z.ltb_spec (Z.min (io + Z.of_nat k) (Z.of_nat s)) 0); [lia|]. cbn [obind]. unfold axis_slice.
  replace (Z.to_nat (Z.max 0 io) <=? s)%nat with true by (symmetry; apply Nat.leb_le; lia).
  replace (Z.to_nat (Z.min (io + Z.of_nat k) (Z.of_nat s)) <=? s)%nat with true by (symmetry; apply Nat.leb_le; lia).
  cbn [andb guard obind]. unfold lo, len. do 2 f_equal. lia.
Qed.
Lemma image_range_out k s io : ~ touches k s io -> image_range k s io = None.
Proof.
  unfold touches, image_range, i32_to_usize. intros H.
  replace (io + Z.of_nat k mod 2 + - (Z.of_nat k mod 2)) with io by lia.
  destruct (Z.ltb_spec (Z.max 0 io) 0); [lia|]. cbn [obind].
  destruct (Z.ltb_spec (Z.min (io + Z.of_nat k) (Z.of_nat s)) 0); [reflexivity|]. cbn [obind]. unfold axis_slice.
  replace (Z.to_nat (Z.max 0 io) <=? s)%nat with false by (symmetry; apply Nat.leb_gt; lia). reflexivity.
Qed.
Lemma kernel_range_in k s io : touches k s io -> kernel_range k s k io = Some (seq (klo io) (len k s io)).
Proof.
  unfold touches, kernel_range, i32_to_usize. intros H.
  replace (io + Z.of_nat k mod 2 + - (Z.of_nat k mod 2)) with io by lia.
  replace (- - (Z.of_nat k mod 2) - (io + Z.of_nat k mod 2)) with (- io) by lia.
  destruct (Z.ltb_spec (Z.max (- io) 0) 0); [lia|]. cbn [obind].
  destruct (Z.ltb_spec (Z.min (Z.of_nat k) (Z.of_nat k + Z.of_nat s - (io + Z.of_nat k))) 0); [lia|]. cbn [obind]. unfold axis_slice.
  match goal with |- context [(?a <=? k)%nat && (?b <=? k)%nat] =>
    replace (a <=? k)%nat with true by (symmetry; apply Nat.leb_le; lia);
    replace (b <=? k)%nat with true by (symmetry; apply Nat.leb_le; lia) end.
  cbn [andb guard obind]. unfold klo, len. do 2 f_equal; lia.
Qed.
(** The whole kernel is over the image when the window has its size. *)
Lemma full_window k s io : len k s io = k -> (0 < k)%nat -> klo io = 0%nat.
Proof. unfold len, klo. lia. Qed.
Lemma window_rows k s io : (0 < len k s io)%nat -> (klo io + len k s io <= k)%nat /\ (Z.of_nat (lo io) - Z.of_nat (klo io) = io).
Proof. unfold len, klo, lo. lia. Qed.
Lemma lo_seq k s io : seq (lo io) (len k s io) = map (fun a => Z.to_nat (io + Z.of_nat a)) (seq (klo io) (len k s io)).
Proof.
  destruct (len k s io) as [|q] eqn:E; [reflexivity|]. rewrite <- E.
  assert (H : Z.of_nat (lo io) = io + Z.of_nat (klo io)) by (unfold lo, klo, len in *; lia).
  clear E. revert H. generalize (lo io) (klo io). induction (len k s io) as [|m IH]; intros u v H; [reflexivity|].
  cbn [seq map]. f_equal; [lia|]. apply IH. lia.
Qed.

(** *** One placement *)
Section P.
Variable p : Z.
Lemma dot_enc {A} (f g : A -> Z) l z :
  fold_left (fun sum ab => Builder.add p sum (Builder.mul p (fst ab) (snd ab)))
    (combine (map (fun a => enc p (f a)) l) (map (fun a => enc p (g a)) l)) (enc p z) =
  enc p (z + sumZ (map (fun a => f a * g a) l)).
Proof.
  rewrite combine_map2. revert z. induction l as [|a l IH]; intros z.
  - cbn. f_equal. lia.
  - cbn [map fold_left fst snd]. rewrite Selection.enc_mul, Selection.enc_add, IH. f_equal. unfold sumZ. cbn [fold_right]. lia.
Qed.
Lemma flatten_dot_enc {A} (f g : A -> Z) l :
  flatten_and_perform_dot p (map (fun a => enc p (f a)) l) (map (fun a => enc p (g a)) l) =
  enc p (sumZ (map (fun a => f a * g a) l)).
Proof. unfold flatten_and_perform_dot. change (Builder.const p 0) with (enc p 0). now rewrite dot_enc. Qed.

Lemma block_enc (t : tensor Z) d0 d1 d2 d3 n c rows cols : well_formed t -> dims t = [d0; d1; d2; d3] ->
  (n < d0)%nat -> (c < d1)%nat -> (forall i, In i rows -> (i < d2)%nat) -> (forall j, In j cols -> (j < d3)%nat) ->
  block (encoded p t) n c rows cols =
  Some (map (fun ij => enc p (plane t n c (Z.of_nat (fst ij)) (Z.of_nat (snd ij)))) (list_prod rows cols)).
Proof.
  intros W D Hn Hc Hr Hl. unfold block. apply omap_map. intros (i, j) Hij. apply in_prod_iff in Hij as (Hi & Hj). cbn [fst snd].
  rewrite Selection.encoded_elem. destruct (elem_exists t [n; c; i; j] W) as (v & E).
  { rewrite D. repeat constructor; auto. }
  rewrite E. cbn [option_map]. unfold plane. rewrite !(proj2 (Z.leb_le _ _)) by lia. cbn [andb]. rewrite !Nat2Z.id, E. reflexivity.
Qed.
Lemma plane_out_row (t : tensor Z) d0 d1 d2 d3 n c i j : dims t = [d0; d1; d2; d3] -> i < 0 \/ Z.of_nat d2 <= i -> plane t n c i j = 0.
Proof.
  intros D H. unfold plane. destruct (Z.leb_spec 0 i); [|reflexivity]. cbn [andb]. destruct (0 <=? j); [|reflexivity].
  destruct (elem _ _) eqn:E; [|reflexivity]. apply elem_some in E. rewrite D in E.
  repeat match goal with E : in_range _ _ |- _ => unfold in_range in E | E : Forall2 _ (_ :: _) _ |- _ => inversion E; clear E; subst end. lia.
Qed.
Lemma plane_out_col (t : tensor Z) d0 d1 d2 d3 n c i j : dims t = [d0; d1; d2; d3] -> j < 0 \/ Z.of_nat d3 <= j -> plane t n c i j = 0.
Proof.
  intros D H. unfold plane. destruct (Z.leb_spec 0 j); [|now rewrite andb_false_r]. destruct (0 <=? i); [|reflexivity]. cbn [andb].
  destruct (elem _ _) eqn:E; [|reflexivity]. apply elem_some in E. rewrite D in E.
  repeat match goal with E : in_range _ _ |- _ => unfold in_range in E | E : Forall2 _ (_ :: _) _ |- _ => inversion E; clear E; subst end. lia.
Qed.

Variables x w : tensor Z.
Variables N C H V M kh kw : nat.
Hypothesis WX : well_formed x.
Hypothesis WW : well_formed w.
Hypothesis DX : dims x = [N; C; H; V].
Hypothesis DW : dims w = [M; C; kh; kw].
Hypothesis KH : (0 < kh)%nat.
Hypothesis KW : (0 < kw)%nat.

Definition window_sum (n m c : nat) (io jo : Z) : Z :=
  sum_to kh (fun a => sum_to kw (fun b => plane x n c (io + Z.of_nat a) (jo + Z.of_nat b) * plane w m c (Z.of_nat a) (Z.of_nat b))).

Lemma sums_agree n m c io jo :
  sumZ (map (fun ab => plane x n c (io + Z.of_nat (fst ab)) (jo + Z.of_nat (snd ab)) * plane w m c (Z.of_nat (fst ab)) (Z.of_nat (snd ab)))
    (list_prod (seq (klo io) (len kh H io)) (seq (klo jo) (len kw V jo)))) = window_sum n m c io jo.
Proof.
  rewrite (sumZ_prod (fun a b => plane x n c (io + Z.of_nat a) (jo + Z.of_nat b) * plane w m c (Z.of_nat a) (Z.of_nat b))).
  unfold window_sum.
  assert (In1 : forall a, sumZ (map (fun b => plane x n c (io + Z.of_nat a) (jo + Z.of_nat b) * plane w m c (Z.of_nat a) (Z.of_nat b))
      (seq (klo jo) (len kw V jo))) =
    sum_to kw (fun b => plane x n c (io + Z.of_nat a) (jo + Z.of_nat b) * plane w m c (Z.of_nat a) (Z.of_nat b))).
  { intros a. destruct (Nat.eq_0_gt_0_cases (len kw V jo)) as [E|E].
    - rewrite E. cbn [seq map]. symmetry. apply sum_to_zero. intros b Hb. rewrite (plane_out_col x _ _ _ _ _ _ _ _ DX); [lia|]. unfold len in E. lia.
    - apply window_rows in E as Q. apply sum_part; [tauto|]. intros b Hb Hc. rewrite (plane_out_col x _ _ _ _ _ _ _ _ DX); [lia|].
      unfold len, klo in *. lia. }
  rewrite (sumZ_ext _ _ _ (fun a _ => In1 a)).
  destruct (Nat.eq_0_gt_0_cases (len kh H io)) as [E|E].
  - rewrite E. cbn [seq map]. symmetry. apply sum_to_zero. intros a Ha. apply sum_to_zero. intros b Hb.
    rewrite (plane_out_row x _ _ _ _ _ _ _ _ DX); [lia|]. unfold len in E. lia.
  - apply window_rows in E as Q. apply sum_part; [tauto|]. intros a Ha Hc. apply sum_to_zero. intros b Hb.
    rewrite (plane_out_row x _ _ _ _ _ _ _ _ DX); [lia|]. unfold len, klo in *. lia.
Qed.

Lemma placement_in n m c io jo : (n < N)%nat -> (m < M)%nat -> (c < C)%nat -> touches kh H io -> touches kw V jo ->
  placement p kh kw H V kh kw (encoded p x) (encoded p w) n m c io jo = Some (enc p (window_sum n m c io jo)).
Proof.
  intros Hn Hm Hc Th Tw. unfold placement. cbn [encoded dims]. rewrite DW. cbn [aget nth_error obind].
  rewrite (proj2 (Nat.ltb_lt _ _)) by lia. cbn [guard obind].
  rewrite image_range_in by auto. cbn [obind]. rewrite image_range_in by auto. cbn [obind].
  change {| dims := dims x; flat := map (enc p) (flat x) |} with (encoded p x).
  change {| dims := dims w; flat := map (enc p) (flat w) |} with (encoded p w).
  rewrite (block_enc x _ _ _ _ n c _ _ WX DX Hn Hc) by (intros i Hi; apply in_seq in Hi; unfold lo, len in *; lia). cbn [obind].
  rewrite !seq_length.
  set (K := list_prod (seq (klo io) (len kh H io)) (seq (klo jo) (len kw V jo))).
  assert (IMG : map (fun ij => enc p (plane x n c (Z.of_nat (fst ij)) (Z.of_nat (snd ij))))
      (list_prod (seq (lo io) (len kh H io)) (seq (lo jo) (len kw V jo))) =
    map (fun ab => enc p (plane x n c (io + Z.of_nat (fst ab)) (jo + Z.of_nat (snd ab)))) K).
  { rewrite !lo_seq, list_prod_map, map_map. apply map_ext_in. intros (a, b) Hab. apply in_prod_iff in Hab as (Ha & Hb).
    apply in_seq in Ha, Hb. cbn [fst snd]. rewrite !Z2Nat.id by (unfold klo, len in *; lia). reflexivity. }
  rewrite IMG.
  assert (KER : block (encoded p w) m c (seq (klo io) (len kh H io)) (seq (klo jo) (len kw V jo)) =
    Some (map (fun ab => enc p (plane w m c (Z.of_nat (fst ab)) (Z.of_nat (snd ab)))) K)).
  { apply (block_enc w _ _ _ _ m c _ _ WW DW Hm Hc); intros i Hi; apply in_seq in Hi; unfold klo, len in *; lia. }
  destruct ((len kh H io =? kh)%nat && (len kw V jo =? kw)%nat) eqn:F.
  - apply andb_true_iff in F as (F1 & F2). apply Nat.eqb_eq in F1, F2.
    replace (block _ m c (seq 0 kh) (seq 0 kw)) with (block (encoded p w) m c (seq (klo io) (len kh H io)) (seq (klo jo) (len kw V jo))).
    + rewrite KER. cbn [obind]. rewrite flatten_dot_enc. unfold K. now rewrite sums_agree.
    + rewrite (full_window _ _ _ F1 KH), (full_window _ _ _ F2 KW), F1, F2. reflexivity.
  - rewrite !kernel_range_in by auto. cbn [obind]. rewrite !seq_length, !Nat.eqb_refl. cbn [andb guard obind].
    rewrite KER. cbn [obind]. rewrite flatten_dot_enc. unfold K. now rewrite sums_agree.
Qed.
Lemma placement_out n m c io jo : (c < C)%nat -> ~ (touches kh H io /\ touches kw V jo) ->
  placement p kh kw H V kh kw (encoded p x) (encoded p w) n m c io jo = None.
Proof.
  intros Hc T. unfold placement. cbn [encoded dims]. rewrite DW. cbn [aget nth_error obind].
  rewrite (proj2 (Nat.ltb_lt _ _)) by lia. cbn [guard obind].
  destruct (image_range kh H io) eqn:A; [|reflexivity]. cbn [obind].
  destruct (image_range kw V jo) eqn:B; [|reflexivity]. exfalso. apply T. unfold touches. split.
  - destruct (Z_le_gt_dec (- Z.of_nat kh) io), (Z_le_gt_dec io (Z.of_nat H)); try lia; rewrite image_range_out in A by (unfold touches; lia); discriminate.
  - destruct (Z_le_gt_dec (- Z.of_nat kw) jo), (Z_le_gt_dec jo (Z.of_nat V)); try lia; rewrite image_range_out in B by (unfold touches; lia); discriminate.
Qed.

End P.

(** *** The loop visits every position once *)
Lemma steps_at b s n h : (0 < s)%nat -> 0 <= b -> (h < n)%nat ->
  filter (fun io => (io - - b) / Z.of_nat s =? Z.of_nat h) (step_by (- b) (Z.of_nat (n * s)) s) = [- b + Z.of_nat h * Z.of_nat s].
Proof.
  intros Hs Hb Hh. unfold step_by. set (q := Z.to_nat _).
  assert (Q : (h < q)%nat).
  { unfold q. enough (Z.of_nat n <= (Z.of_nat (n * s) - - b + Z.of_nat s - 1) / Z.of_nat s) by lia.
    apply Z.div_le_lower_bound; nia. }
  clearbody q. replace q with (h + S (q - h - 1))%nat by lia. rewrite seq_app, map_app, filter_app. cbn [seq map filter Nat.add].
  assert (G : forall k, (- b + Z.of_nat k * Z.of_nat s - - b) / Z.of_nat s = Z.of_nat k).
  { intros k. replace (- b + Z.of_nat k * Z.of_nat s - - b) with (Z.of_nat k * Z.of_nat s) by lia. apply Z.div_mul. lia. }
  assert (Z0 : forall a k, (h < a \/ a + k <= h)%nat ->
    filter (fun io => (io - - b) / Z.of_nat s =? Z.of_nat h) (map (fun k => - b + Z.of_nat k * Z.of_nat s) (seq a k)) = []).
  { intros a k. revert a. induction k as [|k IH]; intros a Ha; [reflexivity|]. cbn [seq map filter]. rewrite G.
    rewrite (proj2 (Z.eqb_neq _ _)) by lia. apply IH. lia. }
  rewrite Z0 by lia. cbn [app]. rewrite G, Z.eqb_refl, Z0 by lia. reflexivity.
Qed.
