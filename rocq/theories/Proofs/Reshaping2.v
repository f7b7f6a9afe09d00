(** Reshape, Range, Shape and ConstantOfShape. *)
From Coq Require Import List Arith Bool ZArith Lia QArith Qround.
From Verif Require Import Base.Array Base.Machine Spec.Numbers Spec.Shapes Spec.Tensors Spec.Selection Spec.Reshaping Model.Shapes Model.DataMovement Model.Reshaping
  Proofs.Shapes Proofs.Shapes2 Proofs.Tensors Proofs.Reshaping.
From Verif Require Model.Constants.
Import ListNotations.
Local Open Scope nat_scope.

(** *** The loops of the shape inference of Reshape *)
Fixpoint kn (l : list Z) (o : list nat) : nat :=
  match l, o with d :: l, v :: o => (if (d =? -1)%Z then 1 else v) * kn l o | _, _ => 1 end.
Fixpoint cnt (l : list Z) : nat := match l with [] => 0 | d :: l => (if (d =? -1)%Z then 1 else 0) + cnt l end.
Fixpoint midx (k : nat) (l : list Z) (m : option nat) : option nat :=
  match l with [] => m | d :: l => midx (S k) l (if (d =? -1)%Z then Some k else m) end.
Fixpoint fillv (l : list Z) (o : list nat) (v : nat) : list nat :=
  match l, o with d :: l, u :: o => (if (d =? -1)%Z then v else u) :: fillv l o v | _, _ => [] end.
Section R.
Variables (az : bool) (inp : list nat).
Notation en k l := (combine (seq k (length l)) l).
Lemma loop_inv l : forall k kp mi mc hz kp' mi' mc' hz',
  target_loop az inp (en k l) (kp, mi, mc, hz) = Some (kp', mi', mc', hz') ->
  exists o, omap (out_dim az inp) (en k l) = Some o /\ length o = length l /\ kp' = kp * kn l o /\ mc' = mc + cnt l /\ mi' = midx k l mi /\
    Forall (fun d => -1 <= d)%Z l.
Proof.
  induction l as [|d l IH]; intros k kp mi mc hz kp' mi' mc' hz' E; cbn [length seq combine target_loop omap] in *.
  - injection E as <- <- <- <-. exists []. cbn. repeat split; auto; lia.
  - unfold target_step in E at 1. unfold out_dim at 1. cbn [kn cnt midx]. destruct (d =? -1)%Z eqn:D; cbn [obind] in *.
    { apply Z.eqb_eq in D. destruct (IH _ _ _ _ _ _ _ _ _ E) as (o & O & L & K & C & M & F). rewrite O. cbn [obind].
      exists (0 :: o). cbn [length kn]. repeat split; auto; try lia. constructor; [lia|auto]. }
    destruct (d =? 0)%Z eqn:D0.
    { apply Z.eqb_eq in D0. destruct az; cbn [obind] in *.
      - destruct (IH _ _ _ _ _ _ _ _ _ E) as (o & O & L & K & C & M & F). rewrite O. cbn [obind].
        exists (0 :: o). cbn [length kn]. repeat split; auto; try lia. constructor; [lia|auto].
      - destruct (aget inp k) as [v|]; cbn [obind] in *; [|discriminate].
        destruct (IH _ _ _ _ _ _ _ _ _ E) as (o & O & L & K & C & M & F). rewrite O. cbn [obind].
        exists (v :: o). cbn [length kn]. repeat split; auto; try lia. constructor; [lia|auto]. }
    destruct (d <? -1)%Z eqn:D1; [discriminate|]. apply Z.ltb_ge in D1. cbn [obind] in E.
    destruct (IH _ _ _ _ _ _ _ _ _ E) as (o & O & L & K & C & M & F). rewrite O. cbn [obind].
    exists (Z.to_nat d :: o). cbn [length kn]. repeat split; auto; lia.
Qed.
Lemma tup (a a' c c' : nat) (m : option nat) (h h' : bool) : a = a' -> c = c' -> h = h' -> Some (a, m, c, h) = Some (a', m, c', h').
Proof. now intros -> -> ->. Qed.
Lemma loop_some l : forall k kp mi mc hz o, Forall (fun d => -1 <= d)%Z l -> omap (out_dim az inp) (en k l) = Some o ->
  target_loop az inp (en k l) (kp, mi, mc, hz) = Some (kp * kn l o, midx k l mi, mc + cnt l, hz || existsb (Z.eqb 0) l).
Proof.
  induction l as [|d l IH]; intros k kp mi mc hz o F O; cbn [length seq combine target_loop omap] in *.
  - injection O as <-. cbn. now rewrite orb_false_r, Nat.mul_1_r, Nat.add_0_r.
  - inversion F as [|d' l' Fd Fl]; subst. destruct (out_dim az inp (k, d)) as [v|] eqn:V; [|discriminate]. cbn [obind] in O.
    destruct (omap (out_dim az inp) (en (S k) l)) as [o'|] eqn:O'; [|discriminate]. cbn [obind] in O. injection O as <-.
    unfold target_step at 1. unfold out_dim in V. cbn [kn cnt midx existsb]. destruct (d =? -1)%Z eqn:D.
    { cbn [obind]. rewrite (IH _ _ _ _ _ o' Fl O'). apply Z.eqb_eq in D. subst. cbn [Z.eqb orb]. apply tup; [lia|lia|auto with bool]. }
    destruct (d =? 0)%Z eqn:D0.
    { apply Z.eqb_eq in D0. subst d. destruct az.
      - injection V as <-. cbn [obind]. rewrite (IH _ _ _ _ _ o' Fl O'). cbn [Z.eqb orb]. rewrite orb_true_r. apply tup; [lia|lia|auto with bool].
      - rewrite V. cbn [obind]. rewrite (IH _ _ _ _ _ o' Fl O'). cbn [Z.eqb orb]. rewrite orb_true_r. apply tup; [lia|lia|auto with bool]. }
    rewrite (proj2 (Z.ltb_ge d (-1))) by lia. injection V as <-. cbn [obind]. rewrite (IH _ _ _ _ _ o' Fl O').
    rewrite (Z.eqb_sym 0 d), D0. cbn [orb]. apply tup; [lia|lia|auto with bool].
Qed.
Lemma cnt0 l : cnt l = 0 -> forall k m o v, length o = length l -> midx k l m = m /\ fillv l o v = o /\ prod o = kn l o.
Proof.
  induction l as [|d l IH]; intros C k m [|u o] v L; cbn in L; try discriminate; [repeat split|].
  cbn [cnt midx fillv kn] in *. destruct (d =? -1)%Z; [lia|]. destruct (IH C (S k) m o v) as (E1 & E2 & E3); [lia|].
  rewrite E1, E2. unfold prod in *. cbn. rewrite E3. repeat split.
Qed.
Lemma cnt1 l : cnt l = 1 -> forall k m, exists j, j < length l /\ midx k l m = Some (k + j) /\ nth_error l j = Some (-1)%Z /\
  forall o v, length o = length l -> aset o j v = Some (fillv l o v) /\ prod (fillv l o v) = kn l o * v.
Proof.
  induction l as [|d l IH]; intros C k m; [discriminate|]. cbn [cnt midx] in *. destruct (d =? -1)%Z eqn:D.
  - apply Z.eqb_eq in D. exists 0. cbn [length nth_error]. split; [lia|].
    split; [rewrite Nat.add_0_r; destruct l as [|e l]; [reflexivity|]; apply (proj1 (cnt0 (e :: l) ltac:(lia) (S k) (Some k) (repeat 0 (length (e :: l))) 0 (repeat_length _ _)))|].
    split; [now subst|]. intros [|u o] v L; cbn in L; [discriminate|]. cbn [aset fillv kn]. rewrite (proj2 (Z.eqb_eq d (-1)) D).
    destruct (cnt0 l ltac:(lia) 0 None o v ltac:(lia)) as (_ & E2 & E3). rewrite E2. split; auto. unfold prod in *. cbn. rewrite E3. lia.
  - destruct (IH C (S k) m) as (j & Lj & M & N & H). exists (S j). cbn [length nth_error]. split; [lia|]. split; [rewrite M; f_equal; lia|].
    split; auto. intros [|u o] v L; cbn in L; [discriminate|]. destruct (H o v ltac:(lia)) as (A & P). cbn [aset fillv kn]. rewrite D, A.
    split; auto. unfold prod in *. cbn. rewrite P. lia.
Qed.
Lemma fillv_nth l : forall o v i, length o = length l ->
  nth_error (fillv l o v) i = match nth_error l i, nth_error o i with Some d, Some u => Some (if (d =? -1)%Z then v else u) | _, _ => None end.
Proof.
  induction l as [|d l IH]; intros [|u o] v [|i] L; cbn in L; try discriminate; auto. cbn. apply IH. lia.
Qed.
Lemma fillv_length l : forall o v, length o = length l -> length (fillv l o v) = length l.
Proof. induction l as [|d l IH]; intros [|u o] v L; cbn in *; try discriminate; auto. Qed.
Lemma cnt_unique l : cnt l <= 1 <-> forall i j, nth_error l i = Some (-1)%Z -> nth_error l j = Some (-1)%Z -> i = j.
Proof.
  assert (Z0 : forall m, cnt m = 0 <-> forall i, nth_error m i <> Some (-1)%Z).
  { induction m as [|d m IH]; cbn [cnt]; [split; auto; intros _ [|i]; discriminate|]. destruct (d =? -1)%Z eqn:D.
    - apply Z.eqb_eq in D. subst. split; [lia|]. intros H. now destruct (H 0).
    - apply Z.eqb_neq in D. cbn [Nat.add]. rewrite IH. split; intros H; [intros [|i]; cbn; [congruence|auto]|intros i; apply (H (S i))]. }
  induction l as [|d l IH]; cbn [cnt]; [split; [intros _ [|i]; discriminate|lia]|]. destruct (d =? -1)%Z eqn:D.
  - apply Z.eqb_eq in D. subst. split.
    + intros C. assert (C0 : cnt l = 0) by lia. intros [|i] [|j] A B; auto; exfalso; cbn in *; eapply Z0; eauto.
    + intros H. assert (cnt l = 0); [|lia]. apply Z0. intros i E. specialize (H 0 (S i) eq_refl E). discriminate.
  - apply Z.eqb_neq in D. cbn [Nat.add]. rewrite IH. split; intros H i j A B.
    + destruct i, j; cbn in *; auto; congruence.
    + specialize (H (S i) (S j) A B). lia.
Qed.
Lemma out_dim_spec i d o : (-1 <= d)%Z -> out_dim az inp (i, d) = Some o -> target_dim az inp i d o.
Proof.
  intros B. unfold out_dim, target_dim. destruct (d =? -1)%Z eqn:D; [apply Z.eqb_eq in D; auto|]. apply Z.eqb_neq in D.
  destruct (d =? 0)%Z eqn:D0; [apply Z.eqb_eq in D0|apply Z.eqb_neq in D0].
  - intros E. right. left. split; auto. destruct az; [congruence|exact E].
  - intros E. injection E as <-. right. right. lia.
Qed.
Lemma en_nth {A} (l : list A) k i : nth_error (en k l) i = option_map (fun a => (k + i, a)) (nth_error l i).
Proof.
  revert k i. induction l as [|a l IH]; intros k [|i]; cbn; auto; [now rewrite Nat.add_0_r|]. rewrite IH. destruct (nth_error l i); cbn; auto.
  do 2 f_equal. lia.
Qed.
Lemma infer_reshape_sound target out : infer_reshape az inp target = Some out -> reshapes_to az inp target out.
Proof.
  unfold infer_reshape, enumerate. intros E.
  destruct (target_loop az inp (en 0 target) (1, None, 0, false)) as [[[[kp mi] mc] hz]|] eqn:L; [|discriminate]. cbn [obind] in E.
  destruct (loop_inv _ _ _ _ _ _ _ _ _ _ L) as (o & O & Lo & K & C & M & F). rewrite O in E. cbn in C, K. rewrite Nat.add_0_r in K.
  destruct (negb (1 <? mc)) eqn:G1; [|discriminate]. cbn [guard obind] in E. apply negb_true_iff, Nat.ltb_ge in G1.
  destruct (negb _) eqn:G2 in E; [|discriminate]. cbn [guard obind] in E.
  assert (Out : exists v, out = fillv target o v /\ prod out = prod inp).
  { destruct (Nat.eq_dec (cnt target) 0) as [C0|C1].
    - destruct (cnt0 target C0 0 None o 0 Lo) as (E1 & E2 & E3). rewrite E1 in M. subst mi. destruct (prod inp =? kp) eqn:P; [|discriminate].
      apply Nat.eqb_eq in P. cbn [guard obind] in E. injection E as <-. exists 0. split; [auto|]. rewrite E3. lia.
    - destruct (cnt1 target ltac:(lia) 0 None) as (j & Lj & E1 & Nj & H). rewrite E1 in M. subst mi.
      destruct (negb ((kp =? 0) || negb (prod inp mod kp =? 0))) eqn:G3; [|discriminate]. cbn [guard obind Nat.add] in E.
      apply negb_true_iff, orb_false_iff in G3 as (G3 & G4). apply Nat.eqb_neq in G3. apply negb_false_iff, Nat.eqb_eq in G4.
      destruct (H o (prod inp / kp) Lo) as (A & P). rewrite A in E. injection E as <-. exists (prod inp / kp). split; auto. rewrite P, <- K.
      rewrite (Nat.div_mod (prod inp) kp G3) at 2. lia. }
  destruct Out as (v & -> & P). split; [now apply fillv_length|]. split; [|split; [apply cnt_unique; lia|exact P]].
  intros i d u Hd Hu. rewrite fillv_nth, Hd in Hu by auto. destruct (nth_error o i) as [w|] eqn:W; [|discriminate].
  destruct (d =? -1)%Z eqn:D; [left; now apply Z.eqb_eq in D|]. injection Hu as <-. apply out_dim_spec.
  - rewrite Forall_forall in F. apply F. eapply nth_error_In; eauto.
  - pose proof (omap_nth _ _ _ i (0 + i, d) O ltac:(rewrite en_nth, Hd; reflexivity)) as Q. cbn [Nat.add] in Q. congruence.
Qed.
Lemma prod_pos l : 0 < prod l <-> Forall (lt 0) l.
Proof.
  unfold prod. induction l as [|a l IH]; cbn; [split; [constructor|lia]|]. rewrite Forall_cons_iff, <- IH. split; [intros H; split; nia|nia].
Qed.
Lemma infer_reshape_complete target out : Forall (lt 0) inp -> reshapes_to az inp target out -> infer_reshape az inp target = Some out.
Proof.
  intros Pos (Ln & T & U & P). apply cnt_unique in U. apply prod_pos in Pos as Pp.
  assert (Po : Forall (lt 0) out) by (apply prod_pos; lia).
  assert (F : Forall (fun d => -1 <= d)%Z target).
  { apply Forall_forall. intros d I. apply In_nth_error in I as (i & I). destruct (nth_error out i) as [u|] eqn:Hu.
    - destruct (T i d u I Hu) as [|[(? & _)|(? & _)]]; lia.
    - apply nth_error_None in Hu. assert (i < length target) by (apply nth_error_Some; congruence). lia. }
  assert (O : omap (out_dim az inp) (en 0 target) = Some (fillv target out 0)).
  { destruct (omap (out_dim az inp) (en 0 target)) as [o|] eqn:O.
    - f_equal. apply nth_error_ext'. intros i. pose proof (omap_length _ _ _ O) as Lo. rewrite combine_length, seq_length, Nat.min_id in Lo.
      rewrite fillv_nth by auto. destruct (nth_error target i) as [d|] eqn:D.
      + pose proof (omap_nth _ _ _ i (0 + i, d) O ltac:(rewrite en_nth, D; reflexivity)) as Q. cbn [Nat.add] in Q.
        assert (i < length target) by (apply nth_error_Some; congruence).
        destruct (nth_error out i) as [u|] eqn:Hu; [|apply nth_error_None in Hu; lia]. rewrite <- Q. unfold out_dim.
        destruct (d =? -1)%Z eqn:E; [reflexivity|]. apply Z.eqb_neq in E. destruct (T i d u D Hu) as [|[(-> & Z)|(G & Z)]]; [lia| |].
        * cbn. destruct az; [congruence|exact Z].
        * rewrite (proj2 (Z.eqb_neq d 0)) by lia. f_equal. lia.
      + apply nth_error_None in D. apply nth_error_None. lia.
    - exfalso. assert (X : exists m, omap (out_dim az inp) (en 0 target) = Some m); [|destruct X; congruence]. apply omap_exists.
      intros (i, d) I. apply In_nth_error in I as (j & I). rewrite en_nth in I. destruct (nth_error target j) as [d'|] eqn:D; [|discriminate].
      cbn in I. injection I as <- <-. assert (j < length target) by (apply nth_error_Some; congruence).
      destruct (nth_error out j) as [u|] eqn:Hu; [|apply nth_error_None in Hu; lia]. unfold out_dim.
      destruct (d' =? -1)%Z eqn:E; [eauto|]. destruct (d' =? 0)%Z eqn:E0; [|eauto]. destruct az; [eauto|].
      apply Z.eqb_eq in E0. apply Z.eqb_neq in E. destruct (T j d' u D Hu) as [|[(_ & Z)|(G & _)]]; [lia| |lia]. exists u. exact Z. }
  unfold infer_reshape, enumerate. rewrite (loop_some target 0 1 None 0 false _ F O). cbn [obind]. rewrite (proj2 (Nat.ltb_ge 1 (0 + cnt target))) by lia.
  cbn [negb guard obind orb]. assert (Lf := fillv_length target out 0 Ln).
  assert (NZ : az && existsb (Z.eqb 0) target = false).
  { destruct az eqn:A; [|reflexivity]. cbn [andb]. apply not_true_is_false. intros X. apply existsb_exists in X as (d & I & Z). apply Z.eqb_eq in Z. subst d.
    apply In_nth_error in I as (i & I). assert (i < length target) by (apply nth_error_Some; congruence).
    destruct (nth_error out i) as [u|] eqn:Hu; [|apply nth_error_None in Hu; lia].
    destruct (T i 0%Z u I Hu) as [|[(_ & Z)|(G & _)]]; [lia| |lia]. subst. rewrite Forall_forall in Po. specialize (Po 0 (nth_error_In _ _ Hu)). lia. }
  rewrite NZ. cbn [andb negb guard obind]. rewrite O. cbn [obind]. rewrite Nat.add_0_r || idtac.
  assert (Kf : kn target (fillv target out 0) = kn target out).
  { clear - Ln. revert out Ln. induction target as [|d l IH]; intros [|u o] L; cbn in *; try discriminate; auto. rewrite IH by lia. now destruct (d =? -1)%Z. }
  rewrite Kf, Nat.mul_1_l. destruct (Nat.eq_dec (cnt target) 0) as [C0|C1].
  - destruct (cnt0 target C0 0 None out 0 Ln) as (E1 & E2 & E3). rewrite E1, E2, <- E3, P, Nat.eqb_refl. reflexivity.
  - destruct (cnt1 target ltac:(lia) 0 None) as (j & Lj & E1 & Nj & H). rewrite E1. cbn [Nat.add].
    destruct (nth_error out j) as [v|] eqn:V; [|apply nth_error_None in V; lia].
    assert (Fo : forall o, length o = length target -> (forall i, i <> j -> nth_error o i = nth_error out i) -> fillv target o v = out).
    { intros o Lo N. apply nth_error_ext'. intros i. rewrite fillv_nth by auto. destruct (Nat.eq_dec i j) as [->|D].
      - rewrite Nj. destruct (nth_error o j) eqn:W; [cbn; auto|]. apply nth_error_None in W. lia.
      - rewrite N by auto. destruct (nth_error target i) as [d|] eqn:Td.
        + destruct (nth_error out i); auto. destruct (d =? -1)%Z eqn:Dd; [|reflexivity]. apply Z.eqb_eq in Dd. subst.
          destruct D. exact (proj1 (cnt_unique target) U i j Td Nj).
        + apply nth_error_None in Td. symmetry. apply nth_error_None. lia. }
    assert (Eo := Fo out Ln (fun _ _ => eq_refl)). destruct (H out v Ln) as (_ & Pv). rewrite Eo in Pv.
    assert (Kp : 0 < kn target out) by (destruct (kn target out); [lia|lia]).
    rewrite (proj2 (Nat.eqb_neq (kn target out) 0)) by lia. rewrite <- P, Pv.
    rewrite (Nat.mul_comm (kn target out) v), Nat.mod_mul, Nat.div_mul by lia. cbn [Nat.eqb negb orb guard obind].
    destruct (H (fillv target out 0) v Lf) as (A & _). rewrite A. f_equal. apply Fo; auto. intros i D. rewrite fillv_nth by auto.
    destruct (nth_error target i) as [d|] eqn:Td.
    + destruct (nth_error out i); auto. destruct (d =? -1)%Z eqn:Dd; [|reflexivity]. apply Z.eqb_eq in Dd. subst.
      destruct D. exact (proj1 (cnt_unique target) U i j Td Nj).
    + apply nth_error_None in Td. symmetry. apply nth_error_None. lia.
Qed.
End R.

(** *** The Reshape layer *)
Lemma cnt_filter l : length (filter (Z.eqb (-1)) l) = cnt l.
Proof. induction l as [|d l IH]; cbn [filter cnt]; auto. rewrite (Z.eqb_sym (-1) d). destruct (d =? -1)%Z; cbn; now rewrite IH. Qed.
Lemma zprod_nat l : zprod (map Z.of_nat l) = Z.of_nat (prod l).
Proof. unfold zprod, prod. induction l as [|a l IH]; cbn [map fold_right]; auto. rewrite IH. lia. Qed.
Lemma forall2_nth {A B} (R : A -> B -> Prop) l : forall m, length m = length l ->
  (forall i a b, nth_error l i = Some a -> nth_error m i = Some b -> R a b) -> Forall2 R l m.
Proof.
  induction l as [|a l IH]; intros [|b m] L H; cbn in L; try discriminate; constructor.
  - exact (H 0 a b eq_refl eq_refl).
  - apply IH; [lia|]. intros i. exact (H (S i)).
Qed.
Lemma reshape_exact {T} az target (x y : tensor T) : well_formed x -> (zprod (filter (fun d => negb (d =? -1)) target) < U64)%Z ->
  ~ In 0%Z target -> (reshape target x = Some y <-> reshapes_to az (dims x) target (dims y) /\ flat y = flat x).
Proof.
  intros W B N. unfold reshape. assert (R := fun o => reshape_ok (Z.of_nat (length (flat x))) target o ltac:(lia) B). split.
  - intros E. destruct (infer_reshape_shape _ target) as [o|] eqn:I; [|discriminate]. cbn [obind] in E. pose proof (proj1 (R o) eq_refl) as (F & C & P).
    apply from_shape_inv in E as (-> & L). cbn [dims flat]. split; auto. rewrite cnt_filter in C.
    assert (Lo : length o = length target) by (clear - F; induction F; cbn; congruence).
    split; [now rewrite map_length|]. split; [|split; [now apply cnt_unique|]].
    + intros i d u Hd Hu. rewrite nth_error_map in Hu. destruct (nth_error o i) as [z|] eqn:Z; [|discriminate]. injection Hu as <-.
      assert (G : (0 < d /\ z = d \/ d = -1 /\ 0 <= z)%Z).
      { clear - F Hd Z. revert i Hd Z. induction F; intros [|i] Hd Z; cbn in *; try discriminate; [congruence|eauto]. }
      destruct G as [(G & ->)|(-> & _)]; [right; right; lia|now left].
    + rewrite <- L. exact W.
  - intros ((Ln & T' & U & P) & E). assert (I : infer_reshape_shape (Z.of_nat (length (flat x))) target = Some (map Z.of_nat (dims y))).
    { apply R. split; [|split].
      - apply forall2_nth; [now rewrite map_length|]. intros i d z Hd Hz. rewrite nth_error_map in Hz.
        destruct (nth_error (dims y) i) as [u|] eqn:Hu; [|discriminate]. injection Hz as <-.
        destruct (T' i d u Hd Hu) as [->|[(-> & _)|(G & Z)]]; [right; lia| |left; lia]. destruct N. eapply nth_error_In; eauto.
      - rewrite cnt_filter. now apply cnt_unique.
      - rewrite zprod_nat, P, W. reflexivity. }
    rewrite I. cbn [obind]. rewrite map_map, (map_ext _ (fun n => n)), map_id by (intros; apply Nat2Z.id).
    rewrite from_shape_some by (rewrite W; auto). destruct y as [dy fy]. cbn in *. now subst.
Qed.
Lemma reshape_zero {T} target (x : tensor T) : In 0%Z target -> reshape target x = None.
Proof.
  intros I. unfold reshape, infer_reshape_shape.
  assert (H : forall l st, In 0%Z l -> for_each l (fun d (st : Z * bool) => let (acc, minus_one) := st in
    if (d =? -1)%Z then (if minus_one then None else Some (acc, true)) else if (d <=? 0)%Z then None
    else let* acc := unsigned U64 (acc * d) in Some (acc, minus_one)) st = None).
  { induction l as [|d l IH]; intros st J; [destruct J|]. cbn [for_each]. destruct J as [->|J].
    - now destruct st.
    - match goal with |- obind ?e _ = None => destruct e end; cbn [obind]; auto. }
  now rewrite H.
Qed.

(** *** Range *)
Lemma range_sequence_eq n : forall c d, (forall i, (i < n)%nat -> - 2 ^ 63 <= c + Z.of_nat i * d < 2 ^ 63)%Z ->
  forall i, nth_error (range_sequence n c d) i = if i <? n then Some (c + Z.of_nat i * d)%Z else None.
Proof.
  induction n as [|n IH]; intros c d B i; cbn [range_sequence]; [now destruct i|].
  destruct i as [|i]; cbn [nth_error]; [change (0 <? S n) with true; cbv iota; f_equal; lia|].
  destruct n as [|n]; [now destruct i|].
  assert (E : saturating_add c d = (c + d)%Z) by (unfold saturating_add; pose proof (B 1 ltac:(lia)); lia).
  rewrite IH.
  - change (S i <? S (S n)) with (i <? S n). destruct (i <? S n); auto. f_equal. lia.
  - intros j Hj. rewrite E. pose proof (B (S j) ltac:(lia)). lia.
Qed.
Lemma div_ceil_lt i a b : (0 < b)%Z -> (i < div_ceil a b <-> i * b < a)%Z.
Proof.
  intros B. unfold div_ceil. split; intros H.
  - assert (H' : (i + 1 <= (a + b - 1) / b)%Z) by lia. assert (b * (i + 1) <= a + b - 1)%Z; [|nia].
    transitivity (b * ((a + b - 1) / b))%Z; [nia|]. apply Z.mul_div_le. lia.
  - assert (i + 1 <= (a + b - 1) / b)%Z; [|lia]. apply Z.div_le_lower_bound; nia.
Qed.
Lemma range_build_ok start limit delta : i64 start -> i64 limit -> delta <> 0%Z -> i64 (limit - start) ->
  exists l, range_build start limit delta = Some l /\ progression start limit delta l.
Proof.
  unfold i64. intros Bs Bl D Bd. unfold range_build. rewrite (proj2 (Z.eqb_neq delta 0) D). cbn [negb guard obind].
  destruct ((0 <? delta) && (start <? limit) || (delta <? 0) && (limit <? start))%Z eqn:C.
  - rewrite (proj2 (Z.leb_le _ _)), (proj2 (Z.ltb_lt _ _)) by lia. cbn [andb guard obind]. eexists. split; [reflexivity|].
    set (n := Z.to_nat (div_ceil (Z.abs (limit - start)) (Z.abs delta))).
    assert (N : forall i, i < n <-> (Z.of_nat i * Z.abs delta < Z.abs (limit - start))%Z).
    { intros i. rewrite <- div_ceil_lt by lia. unfold n. lia. }
    assert (C' : (0 < delta /\ start < limit \/ delta < 0 /\ limit < start)%Z).
    { apply orb_true_iff in C as [C|C]; apply andb_true_iff in C as (A & B); apply Z.ltb_lt in A, B; lia. }
    intros i. rewrite range_sequence_eq.
    + cbv zeta. unfold before_limit. specialize (N i). destruct (0 <? delta)%Z eqn:P; [apply Z.ltb_lt in P|apply Z.ltb_ge in P].
      * destruct (Z.ltb_spec (start + Z.of_nat i * delta) limit), (Nat.ltb_spec i n); auto; exfalso; nia.
      * destruct (Z.ltb_spec limit (start + Z.of_nat i * delta)), (Nat.ltb_spec i n); auto; exfalso; nia.
    + intros j Hj. apply N in Hj. destruct C' as [(? & ?)|(? & ?)]; nia.
  - cbn [obind]. exists []. split; [reflexivity|]. intros i. cbv zeta. unfold before_limit. destruct i; cbn [nth_error].
    all: apply orb_false_iff in C as (A & B).
    all: destruct (0 <? delta)%Z eqn:P; [apply Z.ltb_lt in P|apply Z.ltb_ge in P]; cbn [andb] in A.
    all: try (apply Z.ltb_ge in A); try (rewrite (proj2 (Z.ltb_lt delta 0)) in B by lia; cbn [andb] in B; apply Z.ltb_ge in B).
    all: match goal with |- None = (if ?b then _ else _) => destruct b eqn:X; auto; apply Z.ltb_lt in X; nia end.
Qed.
Lemma range_layer_ok p start limit delta : (2 ^ 63 <= p)%Z -> i64 start -> i64 limit -> delta <> 0%Z -> i64 (limit - start) ->
  exists l, range_layer p start limit delta = Some (encoded p {| dims := [length l]; flat := l |}) /\ progression start limit delta l.
Proof.
  intros Pp Bs Bl D Bd. destruct (range_build_ok start limit delta Bs Bl D Bd) as (l & E & Pr). exists l. split; auto.
  unfold range_layer. rewrite E. cbn [obind].
  assert (O : omap (range_constant p) l = Some (map (enc p) l)).
  { assert (F : Forall (fun v => (- 2 ^ 63 <= v)%Z) l).
    { apply Forall_forall. intros v I. apply In_nth_error in I as (i & I). rewrite Pr in I. cbv zeta in I. unfold before_limit, i64 in *.
      destruct (0 <? delta)%Z eqn:P; [apply Z.ltb_lt in P|apply Z.ltb_ge in P].
      - destruct (_ <? limit)%Z; [|discriminate]. injection I as <-. nia.
      - destruct (Z.ltb_spec limit (start + Z.of_nat i * delta)); [|discriminate]. injection I as <-. lia. }
    clear - F Pp. induction F as [|v l Fv F IH]; [reflexivity|]. cbn [omap map]. rewrite IH. unfold range_constant.
    destruct (Z.leb_spec 0 v).
    - reflexivity.
    - rewrite (proj2 (Z.leb_le _ _)) by lia. cbn [guard obind]. do 2 f_equal. unfold enc. rewrite Z.abs_neq by lia.
      replace (p - - v)%Z with (v + 1 * p)%Z by lia. now rewrite Z.mod_add by lia. }
  rewrite O. cbn [obind]. apply from_shape_some. rewrite map_length. unfold prod. cbn. lia.
Qed.
Lemma range_announced start limit delta l : delta <> 0%Z -> progression start limit delta l ->
  infer_range (inject_Z start) (inject_Z limit) (inject_Z delta) = Some [length l].
Proof.
  intros D Pr. unfold infer_range. assert (Q : Qeq_bool (inject_Z delta) 0 = false).
  { apply not_true_is_false. intros H. apply Qeq_bool_iff in H. unfold Qeq in H. cbn in H. lia. }
  rewrite Q. cbn [negb guard obind]. do 2 f_equal.
  assert (C : Qceiling ((inject_Z limit - inject_Z start) / inject_Z delta) = (- ((start - limit) / delta))%Z).
  { unfold Qceiling. rewrite Zdiv_Qdiv. f_equal. apply Qfloor_comp. unfold Z.sub. rewrite inject_Z_plus, inject_Z_opp. unfold Qdiv. ring. }
  rewrite C. set (n := Z.to_nat _).
  assert (H : forall i, i < n <-> i < length l).
  { intros i. rewrite <- nth_error_Some, Pr. cbv zeta. unfold before_limit.
    assert (N : i < n <-> ((start - limit) / delta < - Z.of_nat i)%Z) by (unfold n; lia). rewrite N.
    destruct (0 <? delta)%Z eqn:P; [apply Z.ltb_lt in P|apply Z.ltb_ge in P].
    - pose proof (Z.div_mod (start - limit) delta D). pose proof (Z.mod_pos_bound (start - limit) delta P).
      destruct (Z.ltb_spec (start + Z.of_nat i * delta) limit) as [L|L]; split; intros X; try congruence; try discriminate; try nia.
    - pose proof (Z.div_mod (start - limit) delta D). pose proof (Z.mod_neg_bound (start - limit) delta ltac:(lia)).
      destruct (Z.ltb_spec limit (start + Z.of_nat i * delta)) as [L|L]; split; intros X; try congruence; try discriminate; try nia. }
  destruct (lt_eq_lt_dec n (length l)) as [[L|L]|L]; auto; [apply H in L|apply H in L]; lia.
Qed.
Lemma range_zero_delta p start limit : range_layer p start limit 0 = None.
Proof. reflexivity. Qed.
(** The circuit holds the integer parts: 0, 5/2, 1 gives two elements where there are three. *)
Definition number (q : Q) : Constants.tensor_data := {| Constants.float_data := [q]; Constants.int_data := [] |}.
Lemma range_fraction p : exists limit l, load_scalar (number (5 # 2)) = Some limit /\
  range_layer p 0 limit 1 = Some l /\ dims l = [2] /\ infer_range 0 (5 # 2) 1 = Some [3].
Proof. eexists. eexists. split; [reflexivity|]. split; [reflexivity|]. split; reflexivity. Qed.

(** *** Shape *)
Lemma filter_seq a b n : forall k, b <= k + n -> filter (fun i => (a <=? i) && (i <? b)) (seq k n) = seq (Nat.max a k) (b - Nat.max a k).
Proof.
  induction n as [|n IH]; intros k H; cbn [seq filter].
  - replace (b - Nat.max a k) with 0 by lia. reflexivity.
  - rewrite IH by lia. destruct (Nat.leb_spec a k); cbn [andb].
    + destruct (Nat.ltb_spec k b).
      * replace (Nat.max a (S k)) with (S k) by lia. replace (Nat.max a k) with k by lia. replace (b - k) with (S (b - S k)) by lia. reflexivity.
      * replace (b - Nat.max a (S k)) with 0 by lia. replace (b - Nat.max a k) with 0 by lia. reflexivity.
    + replace (Nat.max a (S k)) with (Nat.max a k) by lia. reflexivity.
Qed.
Lemma slice_nth (s : list nat) n : forall a, a + n <= length s -> map (fun i => nth i s 0) (seq a n) = firstn n (skipn a s).
Proof.
  induction n as [|n IH]; intros a H; cbn [seq map]; [reflexivity|]. rewrite IH by lia.
  assert (E : skipn a s = nth a s 0 :: skipn (S a) s).
  { assert (L : a < length s) by lia. clear - L. revert a L. induction s as [|x s IH]; intros [|a] L; cbn in L; try lia; auto. cbn [skipn nth]. apply IH. lia. }
  rewrite E. reflexivity.
Qed.
Lemma shape_bound_le r z : shape_bound r z <= r.
Proof. unfold shape_bound. destruct (Z.ltb_spec z 0); lia. Qed.
Lemma shape_build_ok sa ea s : shape_build sa ea s =
  dims_between s (match sa with Some v => v | None => 0%Z end) (match ea with Some v => v | None => Z.of_nat (length s) end).
Proof.
  unfold shape_build, dims_between. set (u := match sa with Some v => v | None => _ end). set (v := match ea with Some v => v | None => _ end).
  set (r := length s). set (a := shape_bound r u). set (b := shape_bound r v). pose proof (shape_bound_le r v) as Hb.
  rewrite (filter_ext_in _ (fun i => (a <=? i) && (i <? b))).
  - rewrite filter_seq by (fold b in Hb; lia). replace (Nat.max a 0) with a by lia. rewrite slice_nth.
    + destruct (Nat.ltb_spec a b); auto. replace (b - a) with 0 by lia. reflexivity.
    + pose proof (shape_bound_le r u) as Ha. fold a in Ha. fold b in Hb. fold r. lia.
  - intros i I. apply in_seq in I. unfold a, b, shape_bound, from_end. f_equal.
    + apply eq_true_iff_eq. rewrite Z.leb_le, Nat.leb_le. destruct (Z.ltb_spec u 0); lia.
    + apply eq_true_iff_eq. rewrite Z.ltb_lt, Nat.ltb_lt. destruct (Z.ltb_spec v 0); lia.
Qed.
Lemma shape_layer_ok p sa ea s : let l := dims_between s (match sa with Some v => v | None => 0%Z end) (match ea with Some v => v | None => Z.of_nat (length s) end) in
  shape_layer p sa ea s = Some (encoded p {| dims := [length l]; flat := map Z.of_nat l |}) /\ infer_shape_op sa ea s = [length l].
Proof.
  cbv zeta. rewrite <- shape_build_ok. split.
  - unfold shape_layer. rewrite from_shape_some; [|rewrite map_length; unfold prod; cbn; lia]. unfold encoded. cbn [dims flat]. now rewrite map_map.
  - unfold infer_shape_op, shape_build. set (b := shape_bound (length s) (match ea with Some v => v | None => Z.of_nat (length s) end)). set (a := shape_bound (length s) (match sa with Some v => v | None => 0%Z end)).
    assert (b <= length s) by apply shape_bound_le. destruct (Nat.ltb_spec a b); [|f_equal; cbn; lia].
    rewrite firstn_length, skipn_length. f_equal. lia.
Qed.

(** *** ConstantOfShape *)
Lemma constant_of_shape_ok p sd value : Forall (fun v => 0 <= v)%Z sd ->
  exists y, constant_of_shape p sd value = Some (encoded p y) /\ well_formed y /\ filled (fill_value value) (map Z.to_nat sd) y.
Proof.
  intros F. unfold constant_of_shape. rewrite (proj2 (forallb_forall _ _)) by (intros v I; apply Z.leb_le; rewrite Forall_forall in F; auto).
  cbn [guard obind]. set (s := map Z.to_nat sd). exists {| dims := s; flat := repeat (fill_value value) (prod s) |}. split; [|split].
  - rewrite from_shape_some by apply repeat_length. unfold encoded. cbn [dims flat]. f_equal. f_equal.
    generalize (prod s). intros n. induction n as [|n IHn]; [reflexivity|]. cbn [repeat map]. now rewrite <- IHn.
  - unfold well_formed. cbn. apply repeat_length.
  - split; [reflexivity|]. intros c R. rewrite elem_in by exact R. cbn [dims flat]. apply row_major_lt in R.
    generalize dependent (row_major c s). generalize (prod s). intros n i H. revert i H. induction n; intros [|i] H; cbn; [lia|lia|auto|apply IHn; lia].
Qed.
Lemma constant_of_shape_negative p sd value : ~ Forall (fun v => 0 <= v)%Z sd -> constant_of_shape p sd value = None.
Proof.
  intros F. unfold constant_of_shape. destruct (forallb _ sd) eqn:E; [|reflexivity]. destruct F. apply Forall_forall. intros v I.
  rewrite forallb_forall in E. apply Z.leb_le. auto.
Qed.
Lemma fill_fraction p sd : constant_of_shape p sd (Some (number (5 # 2))) = constant_of_shape p sd (Some (number 2)).
Proof. reflexivity. Qed.
