(** ScatterND. *)
From Coq Require Import List Arith Bool ZArith Lia.
From Verif Require Import Base.Array Spec.Shapes Spec.Tensors Model.Shapes Model.DataMovement Proofs.Shapes Proofs.Tensors Proofs.DataMovement Proofs.DataMovement2 Proofs.DataMovement3 Proofs.DataMovement4 Proofs.DataMovement5 Proofs.DataMovement6.
Import ListNotations.
Local Open Scope list_scope.

Lemma prod_pos s : Forall (lt 0) s -> 0 < prod s.
Proof. intros F. induction F as [|d l P F IH]; [cbn; lia|]. rewrite prod_cons. nia. Qed.
Lemma wrap_small z : (0 <= z < 2 ^ 64)%Z -> wrap z = z.
Proof. intros H. apply Z.mod_small. exact H. Qed.
Lemma forall_skipn {A} (P : A -> Prop) l k : Forall P l -> Forall P (skipn k l).
Proof. revert l. induction k as [|k IH]; intros l F; auto. destruct F; cbn; auto. Qed.
Lemma forall_firstn {A} (P : A -> Prop) l k : Forall P l -> Forall P (firstn k l).
Proof. revert l. induction k as [|k IH]; intros l F; [constructor|]. destruct F; cbn; auto. Qed.
Lemma prod_split s k : prod s = prod (firstn k s) * prod (skipn k s).
Proof. rewrite <- prod_app. now rewrite firstn_skipn. Qed.
(** Every suffix of a shape with positive dimensions is no larger than the shape. *)
Lemma suffix_le s k : Forall (lt 0) s -> prod (skipn k s) <= prod s.
Proof. intros F. rewrite (prod_split s k). pose proof (prod_pos _ (forall_firstn _ _ k F)). nia. Qed.
Lemma prefix_le s k : Forall (lt 0) s -> prod (firstn k s) <= prod s.
Proof. intros F. rewrite (prod_split s k). pose proof (prod_pos _ (forall_skipn _ _ k F)). nia. Qed.

Lemma ravel_wrap_ok p s : in_range p s -> Forall (lt 0) s -> (Z.of_nat (prod s) < 2 ^ 64)%Z ->
  ravel_wrap (map Z.of_nat p) s = Some (Z.of_nat (row_major p s)).
Proof.
  intros R P B. pose proof (in_range_length _ _ R) as L. unfold ravel_wrap.
  match goal with |- context [for_in _ ?f _] => set (F := f) end. set (n := length s).
  destruct (for_list (fun j (st : Z * Z) => st = (Z.of_nat (row_major (skipn (n - j) p) (skipn (n - j) s)), Z.of_nat (prod (skipn (n - j) s))))
    F (rev (seq 0 n)) (0%Z, 1%Z)) as (st & E & ->).
  - rewrite Nat.sub_0_r. rewrite (skipn_all2 p), (skipn_all2 s) by (unfold n; lia). reflexivity.
  - intros j i st Hj ->. assert (Lj : j < n).
    { assert (j < length (rev (seq 0 n))) by (apply nth_error_Some; congruence). rewrite rev_length, seq_length in *. auto. }
    assert (Ei : i = n - S j).
    { apply (nth_error_nth _ _ 0) in Hj. rewrite rev_nth in Hj by (rewrite seq_length; lia). rewrite seq_length, seq_nth in Hj by lia. lia. }
    unfold F. rewrite (nth_getZ _ _ 0%Z) by (rewrite map_length; unfold n in *; lia). cbn [obind]. rewrite nth_get by (fold n; lia). cbn [obind].
    rewrite (map_nth_lt _ _ _ 0) by (unfold n in *; lia).
    pose proof (row_major_lt _ _ (in_range_skipn _ _ i R)) as Lt. pose proof (suffix_le s i P) as Ls.
    assert (Er : row_major (skipn i p) (skipn i s) = nth i p 0 * prod (skipn (S i) s) + row_major (skipn (S i) p) (skipn (S i) s)).
    { rewrite (skipn_cons p), (skipn_cons s) by (unfold n in *; lia). apply row_major_cons. rewrite !skipn_length. lia. }
    assert (Ep : prod (skipn i s) = nth i s 0 * prod (skipn (S i) s)) by (rewrite (skipn_cons s) by (unfold n in *; lia); reflexivity).
    replace (n - j) with (S i) by lia. replace (n - S j) with i by lia. eexists. split; [reflexivity|].
    rewrite !wrap_small; rewrite ?wrap_small; try lia; f_equal; lia.
  - rewrite rev_length, seq_length in E. fold n. rewrite E. cbn [obind]. now rewrite Nat.sub_diag.
Qed.

(** Writing a list of (destination, source) pairs in order. *)
Section Writes.
Context {T : Type}.
Variable upd : list T.
Definition write '(data_idx, update_idx) (out : list T) : option (list T) :=
  if (data_idx <? Z.of_nat (length out))%Z && (update_idx <? length upd) then
      let* u := aget upd update_idx in aset out (Z.to_nat data_idx) u
    else Some out.
Lemma write_ok k w out : k < length out -> w < length upd -> exists v, nth_error upd w = Some v /\ write (Z.of_nat k, w) out = Some (put k v out).
Proof.
  intros Hk Hw. unfold write. rewrite (proj2 (Z.ltb_lt _ _)) by lia. rewrite (proj2 (Nat.ltb_lt _ _)) by lia. cbn [andb].
  unfold aget. destruct (nth_error upd w) as [v|] eqn:E; [|apply nth_error_None in E; lia]. exists v. split; auto. cbn [obind].
  rewrite Nat2Z.id. now rewrite aset_put.
Qed.
Lemma put_nth_error {A} i (v : A) l j : i < length l -> nth_error (put i v l) j = if j =? i then Some v else nth_error l j.
Proof.
  intros H. destruct (Nat.lt_ge_cases j (length l)) as [Lt|Ge].
  - rewrite (nth_error_nth' _ v) by (rewrite put_length; auto). rewrite put_nth by auto. destruct (j =? i); auto.
    now rewrite (nth_error_nth' _ v).
  - rewrite (proj2 (nth_error_None _ _)) by (rewrite put_length; auto). destruct (Nat.eqb_spec j i); [lia|].
    now rewrite (proj2 (nth_error_None _ _)).
Qed.
Lemma writes_ok (l : list (nat * nat)) : forall out, (forall k w, In (k, w) l -> k < length out /\ w < length upd) ->
  exists out', for_each (map (fun e => (Z.of_nat (fst e), snd e)) l) write out = Some out' /\ length out' = length out /\
    (forall p, (forall w, ~ In (p, w) l) -> nth_error out' p = nth_error out p) /\
    (forall p w, In (p, w) l -> (forall w', In (p, w') l -> w' = w) -> nth_error out' p = nth_error upd w).
Proof.
  enough (G : forall l out, (forall k w, In (k, w) l -> k < length out /\ w < length upd) ->
    exists out', for_each (map (fun e => (Z.of_nat (fst e), snd e)) l) write out = Some out' /\ length out' = length out /\
    (forall p, (forall w, ~ In (p, w) l) -> nth_error out' p = nth_error out p) /\
    (forall p w, (forall w', In (p, w') l -> w' = w) -> In (p, w) l \/ nth_error out p = nth_error upd w -> nth_error out' p = nth_error upd w)).
  { intros out H. destruct (G l out H) as (o & E & L & H1 & H2). exists o. repeat split; auto. }
  clear l. induction l as [|(k & w) l IH]; intros out H.
  - exists out. cbn. repeat split; auto. intros p w _ [[]|E]; auto.
  - cbn [map for_each fst snd]. destruct (H k w (or_introl eq_refl)) as (Hk & Hw). destruct (write_ok k w out Hk Hw) as (v & Ev & ->).
    cbn [obind]. destruct (IH (put k v out)) as (o & E & L & H1 & H2).
    { intros k' w' Hi. rewrite put_length by auto. apply H. now right. }
    rewrite put_length in L by auto. exists o. split; auto. split; auto. split.
    + intros p Hp. rewrite H1 by (intros w' Hi; apply (Hp w'); now right). rewrite put_nth_error by auto.
      destruct (Nat.eqb_spec p k) as [->|]; auto. elim (Hp w). now left.
    + intros p w' U Hi. apply H2; [intros; apply U; now right|]. rewrite put_nth_error by auto.
      destruct Hi as [[Ei|Hi]|Eo].
      * injection Ei as -> ->. rewrite Nat.eqb_refl. right. congruence.
      * now left.
      * destruct (Nat.eqb_spec p k) as [->|]; auto. rewrite <- (U w) by now left. right. congruence.
Qed.
End Writes.

Section Scatter.
Context {T : Type}.
Variables (q : list nat) (k : nat) (idx : tensor Z) (upd x : tensor T).
Hypothesis (Wi : well_formed idx) (Wu : well_formed upd) (Wx : well_formed x).
Hypothesis (Di : dims idx = q ++ [k]) (Hk : k <= length (dims x)) (Du : dims upd = q ++ skipn k (dims x)).
Hypothesis (Pos : Forall (lt 0) (dims x)) (Small : (Z.of_nat (prod (dims x)) < 2 ^ 64)%Z).
Hypothesis Valid : forall u j z, in_range u q -> j < k -> elem idx (u ++ [j]) = Some z -> valid_index (nth j (dims x) 0) z.
Let s := dims x.
Let B := skipn k s.
Let raw ui j := nth (ui * k + j) (flat idx) 0%Z.
Let dest ui := map (fun j => position (nth j s 0) (raw ui j)) (seq 0 k).
Lemma scatter_raw u j : in_range u q -> j < k -> elem idx (u ++ [j]) = Some (raw (row_major u q) j) /\
  valid_index (nth j s 0) (raw (row_major u q) j) /\ row_major u q * k + j < length (flat idx).
Proof.
  intros R Hj. assert (Ri : in_range (u ++ [j]) (dims idx)).
  { rewrite Di. apply in_range_app; [now apply in_range_length|]. split; auto. apply in_range_cons. split; auto. constructor. }
  assert (E : row_major (u ++ [j]) (dims idx) = row_major u q * k + j).
  { rewrite Di, row_major_app; [|now apply in_range_length|reflexivity].
    replace (row_major [j] [k]) with j by reflexivity. replace (prod [k]) with k by (cbn; lia). reflexivity. }
  pose proof (row_major_lt _ _ Ri) as Lt. rewrite E in Lt. unfold well_formed in Wi. rewrite Wi.
  assert (Ee : elem idx (u ++ [j]) = Some (raw (row_major u q) j)).
  { rewrite elem_in by exact Ri. rewrite E. apply nth_error_nth'. lia. }
  repeat split; auto; eapply Valid in Ee; auto; apply Ee.
Qed.
Lemma dest_range u : in_range u q -> in_range (dest (row_major u q)) (firstn k s).
Proof.
  intros R. apply in_range_nth. unfold dest. rewrite map_length, seq_length, firstn_length. split; [unfold s; lia|].
  intros i Hi. rewrite nth_map_seq by lia. replace (nth i (firstn k s) 0) with (nth i s 0).
  - apply position_lt. apply scatter_raw; auto. lia.
  - rewrite <- (firstn_skipn k s) at 1. rewrite app_nth1; auto. rewrite firstn_length. unfold s in *. lia.
Qed.
Lemma target_iff u p : in_range u q -> length p = k -> (target idx x u p <-> p = dest (row_major u q)).
Proof.
  intros R L. unfold target. rewrite L. split.
  - intros F. apply (list_nth_ext 0).
    + unfold dest. now rewrite map_length, seq_length.
    + intros i Hi. unfold dest. rewrite nth_map_seq by lia.
      assert (G : exists z, elem idx (u ++ [i]) = Some z /\ valid_index (nth i (dims x) 0) z /\ nth i p 0 = position (nth i (dims x) 0) z).
      { assert (Q : forall (l m : list nat) i (P : nat -> nat -> Prop), Forall2 P l m -> i < length m -> P (nth i l 0) (nth i m 0)).
        { clear. intros l m i P F. revert i. induction F; intros [|i] Hi; cbn in *; try lia; auto. apply IHF. lia. }
        specialize (Q _ _ i _ F Hi). rewrite seq_nth in Q by lia. exact Q. }
      destruct G as (z & Ez & _ & ->). destruct (scatter_raw u i R ltac:(lia)) as (E & _). rewrite Ez in E. injection E as ->. reflexivity.
  - intros ->. apply (Forall2_nth_intro _ 0 0).
    + unfold dest. now rewrite map_length.
    + rewrite seq_length. intros i Hi. rewrite seq_nth by auto. cbn [Nat.add]. unfold dest. rewrite nth_map_seq by auto.
      destruct (scatter_raw u i R Hi) as (E & V & _). eauto.
Qed.
Definition entries : list (nat * nat) :=
  concat (map (fun ui => map (fun t => (row_major (dest ui) (firstn k s) * prod B + t, ui * prod B + t)) (seq 0 (prod B))) (seq 0 (prod q))).
Lemma scatter_updates_ok : scatter_updates s (dims idx) (flat idx) = Some (map (fun e => (Z.of_nat (fst e), snd e)) entries).
Proof.
  unfold scatter_updates. rewrite Di, app_length. cbn [length]. replace (length q + 1 - 1) with (length q) by lia.
  rewrite (proj2 (Nat.leb_le 1 _)) by lia. cbn [guard obind]. rewrite nth_get by (rewrite app_length; cbn; lia). cbn [obind].
  rewrite app_nth2, Nat.sub_diag by lia. cbn [nth]. rewrite (proj2 (Nat.leb_le k (length s))) by exact Hk. cbn [guard obind].
  rewrite firstn_app, Nat.sub_diag, firstn_all. cbn [firstn]. rewrite app_nil_r.
  assert (Es : (if k <? length s then prod (skipn k s) else 1) = prod B).
  { fold B. destruct (Nat.ltb_spec k (length s)); auto. unfold B. rewrite skipn_all2 by lia. reflexivity. }
  rewrite Es.
  rewrite (omap_total _ (fun ui => map (fun e => (Z.of_nat (fst e), snd e))
    (map (fun t => (row_major (dest ui) (firstn k s) * prod B + t, ui * prod B + t)) (seq 0 (prod B))))).
  - cbn [obind]. f_equal. unfold entries. rewrite concat_map. now rewrite map_map.
  - intros ui Hu. apply in_seq in Hu. destruct (unravel_ok ui q ltac:(lia)) as (u & _ & R & <-). cbv zeta.
    rewrite (omap_total _ (fun j => Z.of_nat (position (nth j s 0) (raw (row_major u q) j)))).
    2:{ intros j Hj. apply in_seq in Hj. destruct (scatter_raw u j R ltac:(lia)) as (_ & V & Lt).
        rewrite (nth_getZ _ _ 0%Z) by auto. cbn [obind]. rewrite nth_get by (unfold s in *; lia). cbn [obind].
        fold (raw (row_major u q) j). set (z := raw (row_major u q) j) in *. f_equal. unfold position, from_end, valid_index in *.
        assert (Sd : (Z.of_nat (nth j s 0%nat) < 2 ^ 64)%Z).
        { assert (nth j s 0 <= prod s); [|unfold s in *; lia]. pose proof (prefix_le s (S j) Pos) as Lp.
          rewrite (firstn_snoc s j) in Lp by (unfold s in *; lia). rewrite prod_app in Lp.
          pose proof (prod_pos _ (forall_firstn _ s j Pos)). replace (prod [nth j s 0]) with (nth j s 0) in Lp by (cbn; lia). nia. }
        rewrite wrap_small; destruct (Z.ltb_spec z 0); lia. }
    cbn [obind]. rewrite <- (map_map (fun j => position (nth j s 0) (raw (row_major u q) j)) Z.of_nat). fold (dest (row_major u q)).
    pose proof (dest_range u R) as Rd. pose proof (row_major_lt _ _ Rd) as Lt.
    pose proof (prod_split s k) as Ep. fold B in Ep. pose proof (prefix_le s k Pos) as Lp. unfold s in Lp at 2.
    rewrite ravel_wrap_ok; auto; [|now apply forall_firstn|lia].
    cbn [obind]. f_equal. rewrite map_map. apply map_ext_in. intros t Ht. apply in_seq in Ht. cbn [fst snd]. f_equal.
    set (r := row_major (dest (row_major u q)) (firstn k s)) in *.
    assert (Hb : r * prod B + t < prod s). { rewrite Ep. assert (S r * prod B <= prod (firstn k s) * prod B) by (apply Nat.mul_le_mono_r; lia). lia. }
    change (prod s) with (prod (dims x)) in Hb. rewrite !wrap_small; rewrite ?wrap_small; lia.
Qed.
Lemma entries_in p w : In (p, w) entries <-> exists u b, in_range u q /\ in_range b B /\
  p = row_major (dest (row_major u q) ++ b) s /\ w = row_major (u ++ b) (q ++ B).
Proof.
  assert (Sp : s = firstn k s ++ B) by (symmetry; apply firstn_skipn).
  assert (Key : forall u b, in_range u q -> in_range b B ->
    row_major (dest (row_major u q) ++ b) s = row_major (dest (row_major u q)) (firstn k s) * prod B + row_major b B /\
    row_major (u ++ b) (q ++ B) = row_major u q * prod B + row_major b B).
  { intros u b Ru Rb. split; [transitivity (row_major (dest (row_major u q) ++ b) (firstn k s ++ B)); [f_equal; exact Sp|]|]; apply row_major_app; try (now apply in_range_length).
    apply in_range_length, dest_range; auto. }
  unfold entries. rewrite in_concat. split.
  - intros (l & Hl & Hi). apply in_map_iff in Hl. destruct Hl as (ui & <- & Hu). apply in_seq in Hu.
    apply in_map_iff in Hi. destruct Hi as (t & E & Ht). apply in_seq in Ht. injection E as <- <-.
    destruct (unravel_ok ui q ltac:(lia)) as (u & _ & Ru & <-). destruct (unravel_ok t B ltac:(lia)) as (b & _ & Rb & <-).
    destruct (Key u b Ru Rb) as (E1 & E2). exists u, b. rewrite E1, E2. auto.
  - intros (u & b & Ru & Rb & -> & ->). destruct (Key u b Ru Rb) as (E1 & E2). rewrite E1, E2.
    eexists. split; [apply in_map_iff; exists (row_major u q); split; [reflexivity|]|].
    + apply in_seq. pose proof (row_major_lt _ _ Ru). lia.
    + apply in_map_iff. exists (row_major b B). split; auto. apply in_seq. pose proof (row_major_lt _ _ Rb). lia.
Qed.
Theorem scatter_ok : (forall u u' p, in_range u q -> in_range u' q -> length p = k -> target idx x u p -> target idx x u' p -> u = u') ->
  exists y, scatter_nd idx upd x = Some y /\ well_formed y /\ scattered q k idx upd x y.
Proof.
  intros Dist. unfold scatter_nd. fold s. rewrite scatter_updates_ok. cbn [obind].
  assert (Sp : s = firstn k s ++ B) by (symmetry; apply firstn_skipn).
  assert (Rng : forall u b, in_range u q -> in_range b B -> in_range (dest (row_major u q) ++ b) s /\ in_range (u ++ b) (q ++ B)).
  { intros u b Ru Rb. split; [|apply in_range_app; auto; now apply in_range_length].
    assert (R : in_range (dest (row_major u q) ++ b) (firstn k s ++ B)); [|rewrite <- Sp in R; exact R].
    pose proof (dest_range u Ru) as Rd. apply in_range_app; auto. now apply in_range_length. }
  unfold well_formed in Wx, Wu. fold s in Wx. fold s B in Du. rewrite Du in Wu.
  destruct (writes_ok (flat upd) entries (flat x)) as (o & E & L & H1 & H2).
  { intros p w Hi. apply entries_in in Hi. destruct Hi as (u & b & Ru & Rb & -> & ->). destruct (Rng u b Ru Rb) as (R1 & R2).
    rewrite Wx, Wu. split; now apply row_major_lt. }
  change (fun '(data_idx, update_idx) (out : list T) => _) with (write (flat upd)).
  rewrite E. cbn [obind]. unfold from_shape_vec. rewrite (proj2 (Nat.eqb_eq _ _)) by lia.
  eexists. split; [reflexivity|]. split; [unfold well_formed; cbn [dims flat]; lia|]. split; [reflexivity|]. fold s. fold B. split.
  - intros u p b Ru Lp Tp Rb. assert (Ep : p = dest (row_major u q)) by now apply target_iff.
    destruct (Rng u b Ru Rb) as (R1 & R2). rewrite Ep.
    rewrite (elem_in {| dims := s; flat := o |} _ R1). rewrite (elem_in upd) by (rewrite Du; exact R2). cbn [dims flat]. rewrite Du.
    apply H2; [apply entries_in; exists u, b; auto|].
    intros w' Hw. apply entries_in in Hw. destruct Hw as (u' & b' & Ru' & Rb' & Eq & ->). destruct (Rng u' b' Ru' Rb') as (R1' & _).
    apply row_major_inj in Eq; auto. rewrite <- Ep in Eq.
    assert (Ld : length (dest (row_major u' q)) = k) by (unfold dest; now rewrite map_length, seq_length).
    apply app_eq_app in Eq. assert (Es : p = dest (row_major u' q) /\ b = b').
    { destruct Eq as (l & [(E1 & E2)|(E1 & E2)]).
      - assert (l = []) by (destruct l; auto; apply (f_equal (@length _)) in E1; rewrite app_length in E1; cbn in E1; lia).
        subst l. rewrite app_nil_r in E1. auto.
      - assert (l = []) by (destruct l; auto; apply (f_equal (@length _)) in E1; rewrite app_length in E1; cbn in E1; lia).
        subst l. rewrite app_nil_r in E1. cbn in E2. auto. }
    destruct Es as (Es & <-). assert (u' = u); [|subst; auto].
    apply (Dist u' u p); auto. apply target_iff; auto.
  - intros c Rc No. rewrite (elem_in {| dims := s; flat := o |} _ Rc). rewrite (elem_in x _ Rc). cbn [dims flat]. apply H1.
    intros w Hw. apply entries_in in Hw. destruct Hw as (u & b & Ru & Rb & Eq & _). destruct (Rng u b Ru Rb) as (R1 & _).
    apply row_major_inj in Eq; auto.
    assert (Ld : length (dest (row_major u q)) = k) by (unfold dest; now rewrite map_length, seq_length).
    apply (No u Ru). apply target_iff; auto.
    + rewrite Eq. rewrite firstn_app, Ld, Nat.sub_diag. cbn [firstn]. rewrite app_nil_r. rewrite firstn_all2; lia.
    + rewrite Eq. rewrite firstn_app, Ld, Nat.sub_diag. cbn [firstn]. rewrite app_nil_r. rewrite firstn_all2; auto. lia.
Qed.
End Scatter.
