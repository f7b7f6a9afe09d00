From Coq Require Import List Bool Arith NArith Lia Permutation.
From Verif Require Import Base.Array Base.Field Model.Layered.
From Verif.Model Require Witness.
Import ListNotations.
Local Open Scope list_scope.

(** ** Powers of two *)
Lemma land_even a b : Nat.land (2 * a) (2 * b) = 2 * Nat.land a b.
Proof.
  apply Nat.bits_inj. intros [|n].
  - rewrite Nat.land_spec, !Nat.testbit_even_0. reflexivity.
  - rewrite Nat.land_spec, !Nat.testbit_even_succ, Nat.land_spec by lia. reflexivity.
Qed.
Lemma land_even_odd a b : Nat.land (2 * a) (2 * b + 1) = 2 * Nat.land a b.
Proof.
  apply Nat.bits_inj. intros [|n].
  - rewrite Nat.land_spec, !Nat.testbit_even_0. reflexivity.
  - rewrite Nat.land_spec, Nat.testbit_odd_succ, !Nat.testbit_even_succ, Nat.land_spec by lia. reflexivity.
Qed.
Lemma land_odd_even a b : Nat.land (2 * a + 1) (2 * b) = 2 * Nat.land a b.
Proof. rewrite Nat.land_comm, land_even_odd, Nat.land_comm. reflexivity. Qed.
Lemma land_pred x : Nat.land x (x - 1) = 0 -> x <> 0 -> exists k, x = 2 ^ k.
Proof.
  induction x as [x IH] using lt_wf_ind. intros H N.
  destruct (Nat.Even_or_Odd x) as [(y & ->)|(y & ->)].
  - destruct (IH y) as (k & ->); [lia| |lia|].
    + replace (2 * y - 1) with (2 * (y - 1) + 1) in H by lia. rewrite land_even_odd in H. lia.
    + exists (S k). cbn. lia.
  - replace (2 * y + 1 - 1) with (2 * y) in H by lia. rewrite land_odd_even, Nat.land_diag in H.
    exists 0. cbn. lia.
Qed.
Lemma power_of_two_inv x : power_of_two x = true -> exists k, x = 2 ^ k.
Proof.
  unfold power_of_two. rewrite negb_true_iff, orb_false_iff, negb_false_iff, Nat.eqb_neq, Nat.eqb_eq.
  intros (A & B). now apply land_pred.
Qed.
Lemma tz_pow k : trailing_zeros (2 ^ k) = k.
Proof.
  unfold trailing_zeros. rewrite Nat2N.inj_pow. change (N.of_nat 2) with 2%N.
  induction k as [|k IH]; [reflexivity|]. rewrite Nat2N.inj_succ, N.pow_succ_r'.
  destruct (2 ^ N.of_nat k)%N eqn:E; [apply N.pow_nonzero in E; [tauto|lia]|]. cbn in *. now rewrite IH.
Qed.

(** ** Lists *)
Lemma slice_ok {T} (l : list T) a b : a <= b -> b <= length l ->
  slice l a b = Some (firstn (b - a) (skipn a l)).
Proof. intros H1 H2. unfold slice, Witness.slice. apply Nat.leb_le in H1, H2. now rewrite H1, H2. Qed.
Lemma slice_inv {T} (l : list T) a b r : slice l a b = Some r -> a <= b <= length l /\ r = firstn (b - a) (skipn a l).
Proof.
  unfold slice, Witness.slice. destruct ((a <=? b) && (b <=? length l)) eqn:E; [|discriminate].
  apply andb_true_iff in E as (E1 & E2). apply Nat.leb_le in E1, E2. intros H. injection H as <-. auto.
Qed.
Lemma slice_length {T} (l : list T) a b r : slice l a b = Some r -> length r = b - a.
Proof. intros H. apply slice_inv in H as (H & ->). rewrite firstn_length, skipn_length. lia. Qed.
Lemma splice_length {T} (l r : list T) a : a + length r <= length l -> length (splice l a r) = length l.
Proof. intros H. unfold splice. rewrite !app_length, firstn_length, skipn_length. lia. Qed.
Lemma nth_splice {T} (l r : list T) a k d : a + length r <= length l ->
  nth k (splice l a r) d = if (a <=? k) && (k <? a + length r) then nth (k - a) r d else nth k l d.
Proof.
  intros H. unfold splice. destruct (Nat.leb_spec a k) as [H1|H1]; cbn [andb].
  - rewrite app_nth2 by (rewrite firstn_length; lia). rewrite firstn_length, Nat.min_l by lia.
    destruct (Nat.ltb_spec k (a + length r)) as [H2|H2].
    + now rewrite app_nth1 by lia.
    + rewrite app_nth2 by lia. rewrite <- (firstn_skipn (a + length r) l) at 2.
      rewrite app_nth2 by (rewrite firstn_length; lia). f_equal. rewrite firstn_length. lia.
  - rewrite app_nth1 by (rewrite firstn_length; lia). rewrite <- (firstn_skipn a l) at 2.
    now rewrite app_nth1 by (rewrite firstn_length; lia).
Qed.
Lemma nth_slice {T} (l : list T) a n k d : k < n -> nth k (firstn n (skipn a l)) d = nth (a + k) l d.
Proof.
  intros H. revert l. induction a as [|a IH]; intros l; cbn [skipn Nat.add].
  - revert n k H. induction l as [|x l IH]; intros [|n] [|k] H; cbn; try lia; auto. apply IH. lia.
  - destruct l as [|x l]; cbn [skipn nth]; [|apply IH]. rewrite firstn_nil. now destruct k.
Qed.
Lemma combine_seq_In {B} (l : list B) i x : In (i, x) (combine (seq 0 (length l)) l) <-> nth_error l i = Some x.
Proof.
  enough (G : forall s, In (s + i, x) (combine (seq s (length l)) l) <-> nth_error l i = Some x) by exact (G 0).
  revert i. induction l as [|a l IH]; intros i s; cbn.
  - destruct i; cbn; split; try tauto; discriminate.
  - destruct i as [|i]; cbn.
    + rewrite Nat.add_0_r. split.
      * intros [H|H]; [injection H as ->; reflexivity|]. apply in_combine_l, in_seq in H. lia.
      * intros H. injection H as ->. now left.
    + rewrite <- (IH i (S s)), Nat.add_succ_r. split; [|now right].
      intros [H|H]; auto. injection H as H _. lia.
Qed.
Lemma combine3_nth {A B C} (l : list A) (m : list B) (n : list C) i x y z :
  nth_error l i = Some x -> nth_error m i = Some y -> nth_error n i = Some z -> In ((x, y), z) (combine (combine l m) n).
Proof.
  revert m n i. induction l as [|a l IH]; intros [|b m] [|c n] [|i]; cbn; try discriminate.
  - intros [= ->] [= ->] [= ->]. now left.
  - intros H1 H2 H3. right. eauto.
Qed.

(** ** Checks *)
Lemma check_iff a b : check a b = Some true <-> a = Some true /\ b = Some true.
Proof. destruct a as [[|]|]; cbn; intuition congruence. Qed.
Lemma ok_iff b : ok b = Some true <-> b = true.
Proof. unfold ok. split; congruence. Qed.
Lemma all_iff {A} (f : A -> option bool) l : all f l = Some true <-> forall x, In x l -> f x = Some true.
Proof.
  induction l as [|a l IH]; cbn; [split; [tauto|reflexivity]|]. rewrite check_iff, IH. split.
  - intros (H1 & H2) x [ <- |H]; auto.
  - intros H. split; auto.
Qed.
Lemma obind_true {A} (o : option A) f : obind o f = Some true <-> exists a, o = Some a /\ f a = Some true.
Proof. destruct o; cbn; split; try discriminate; [eauto|intros (b & [= ->] & H); exact H|intros (b & H & _); discriminate]. Qed.

Section Proofs.
Variable K : field.
Local Notation seg := (segment K).

(** The facts established by validate *)
Definition pos_ok (s : seg) (p : nat * nat) : Prop := exists n, nth_error (s_inputs s) (fst p) = Some n /\ snd p < n.
Definition alloc_ok (s sub : seg) (a : allocation) : Prop :=
  length (al_in a) = length (s_inputs sub) /\
  (forall l x y z, nth_error (al_in a) l = Some x -> nth_error (s_inputs sub) l = Some y -> nth_error (s_inputs s) l = Some z -> x + y <= z) /\
  al_out a + s_outputs sub <= s_outputs s.
Definition seg_ok (segs : list seg) (i : nat) (s : seg) : Prop :=
  (forall x, In x (s_inputs s) -> exists k, x = 2 ^ k) /\ s_inputs s <> [] /\ (exists k, s_outputs s = 2 ^ k) /\
  (forall m, In m (s_muls s) -> pos_ok s (m_in0 m) /\ pos_ok s (m_in1 m) /\ m_out m < s_outputs s) /\
  (forall a, In a (s_adds s) -> pos_ok s (a_in a) /\ a_out a < s_outputs s) /\
  (forall k, In k (s_consts s) -> k_out k < s_outputs s) /\
  (forall u, In u (s_customs s) -> (forall p, In p (u_in u) -> pos_ok s p) /\ u_out u < s_outputs s) /\
  (forall ch, In ch (s_children s) -> fst ch < i /\ exists sub, nth_error segs (fst ch) = Some sub /\
    length (s_inputs sub) <= length (s_inputs s) /\ forall a, In a (snd ch) -> alloc_ok s sub a).

Lemma check_offset_ok (s : seg) p : check_offset K s p = Some true -> pos_ok s p.
Proof.
  unfold check_offset, aget. intros H. apply obind_true in H as (n & E & H). apply ok_iff, Nat.ltb_lt in H. exists n. auto.
Qed.
Lemma check_alloc_ok (s sub : seg) a : check_alloc K s sub a = Some true -> alloc_ok s sub a.
Proof.
  unfold check_alloc. intros H. apply check_iff in H as (H1 & H). apply check_iff in H as (H2 & H3). rewrite all_iff in H2. apply ok_iff, Nat.eqb_eq in H1.
  apply obind_true in H3 as (_ & _ & H3). apply check_iff in H3 as (_ & H3). apply ok_iff, Nat.leb_le in H3.
  split; auto. split; auto. intros l x y z Ex Ey Ez.
  specialize (H2 _ (combine3_nth _ _ _ _ _ _ _ Ex Ey Ez)). cbn beta iota in H2. apply obind_true in H2 as (_ & _ & H2).
  apply check_iff in H2 as (_ & H2). apply ok_iff in H2. now apply Nat.leb_le.
Qed.
Lemma check_segment_ok (c : circuit K) i s : check_segment K c i s = Some true -> seg_ok (c_segments c) i s.
Proof.
  unfold check_segment. rewrite !check_iff, !all_iff, !ok_iff. intros (A & B & D & M & AD & CO & CU & CH).
  split. { intros x I. apply A, ok_iff in I. now apply power_of_two_inv. }
  split. { intros E. rewrite E in B. discriminate. }
  split. { now apply power_of_two_inv. }
  split. { intros m I. apply M in I. rewrite !check_iff, ok_iff in I. destruct I as (_ & _ & P0 & P1 & O).
    apply check_offset_ok in P0, P1. apply Nat.ltb_lt in O. auto. }
  split. { intros a I. apply AD in I. rewrite !check_iff, ok_iff in I. destruct I as (_ & P0 & O).
    apply check_offset_ok in P0. apply Nat.ltb_lt in O. auto. }
  split. { intros k I. apply CO in I. now apply ok_iff, Nat.ltb_lt in I. }
  split. { intros u I. apply CU in I. rewrite check_iff, all_iff, ok_iff in I. destruct I as (P0 & O). apply Nat.ltb_lt in O.
    split; auto. intros p I. apply P0 in I. rewrite check_iff in I. now apply check_offset_ok. }
  intros ch I. apply CH in I. rewrite check_iff, ok_iff in I. destruct I as (L & I). apply Nat.ltb_lt in L. split; auto.
  apply obind_true in I as (sub & E & I). rewrite check_iff, all_iff, ok_iff in I. destruct I as (L2 & I). apply Nat.leb_le in L2.
  exists sub. split; auto. split; auto. intros a Ia. apply check_alloc_ok. auto.
Qed.

Definition size_at (c : circuit K) (n0 : nat) (i : nat) : option nat :=
  match i with
  | O => Some n0
  | S j => match nth_error (c_layers c) j with Some id => option_map s_outputs (nth_error (c_segments c) id) | None => None end
  end.
Definition circuit_ok (c : circuit K) : Prop :=
  (forall i s, nth_error (c_segments c) i = Some s -> seg_ok (c_segments c) i s) /\
  c_layers c <> [] /\
  exists n0, input_size K c = Some n0 /\
  forall i id, nth_error (c_layers c) i = Some id -> exists s, nth_error (c_segments c) id = Some s /\
    length (s_inputs s) <= i + 1 /\
    forall j x, nth_error (s_inputs s) j = Some x -> size_at c n0 (i - j) = Some x.

Lemma omap_nth {A B} (f : A -> option B) l r i : omap f l = Some r ->
  nth_error r i = match nth_error l i with Some x => f x | None => None end.
Proof.
  revert r i. induction l as [|a l IH]; intros r i H; cbn in H.
  - injection H as <-. now destruct i.
  - destruct (f a) eqn:E; [|discriminate]. cbn in H. destruct (omap f l); [|discriminate]. cbn in H. injection H as <-.
    destruct i; cbn; auto.
Qed.
Lemma validate_ok (c : circuit K) : validate K c = Some true -> circuit_ok c.
Proof.
  unfold validate. rewrite !check_iff, all_iff, all_iff. intros (S & L & N & H). split; [|split].
  - intros i s E. apply combine_seq_In, S in E. now apply check_segment_ok.
  - intros E. rewrite E in N. discriminate.
  - apply obind_true in H as (id0 & E0 & H). apply obind_true in H as (s0 & ES & H). apply obind_true in H as (n0 & EN & H).
    apply obind_true in H as (outs & EO & H). rewrite check_iff, all_iff in H. destruct H as (H & _).
    exists n0. split. { unfold input_size. rewrite E0. cbn [obind]. rewrite ES. exact EN. }
    intros i id E. apply combine_seq_In, H in E. cbn [fst snd] in E. apply obind_true in E as (s & Es & E).
    exists s. split; auto. rewrite check_iff, all_iff, ok_iff in E. destruct E as (E1 & E2). apply Nat.leb_le in E1. split; auto.
    intros j x Ej. apply combine_seq_In, E2 in Ej. cbn [fst snd] in Ej. apply obind_true in Ej as (n & Ej & Q).
    apply ok_iff, Nat.eqb_eq in Q. subst n. unfold aget in Ej. unfold size_at. destruct (i - j) as [|k]; auto.
    cbn in Ej. rewrite (omap_nth _ _ _ k EO) in Ej. exact Ej.
Qed.

(** ** Evaluation does not fail *)
Variables (rnd : K) (custom : nat -> list K -> option (list K)).
Definition coef_in (n : nat) (k : coef K) : Prop := match k with PublicInput id => id < n | _ => True end.
(** Every public input a gate refers to exists *)
Definition publics_in (n : nat) (s : seg) : Prop :=
  (forall m, In m (s_muls s) -> coef_in n (m_coef m)) /\ (forall a, In a (s_adds s) -> coef_in n (a_coef a)) /\
  (forall k, In k (s_consts s) -> coef_in n (k_coef k)) /\ (forall u, In u (s_customs s) -> coef_in n (u_coef u)).
Lemma coef_value_ok pub k : coef_in (length pub) k -> exists v, coef_value K rnd pub k = Some v.
Proof.
  destruct k as [v| |id]; cbn; eauto. intros H. unfold aget. destruct (nth_error pub id) eqn:E; eauto.
  apply nth_error_None in E. lia.
Qed.
Lemma bump_ok (nxt : list K) o v : o < length nxt -> exists nxt', bump K nxt o v = Some nxt' /\ length nxt' = length nxt.
Proof.
  intros H. unfold bump, aget. destruct (nth_error nxt o) as [x|] eqn:E; [|apply nth_error_None in E; lia]. cbn.
  destruct (aset_some nxt o (x + v)%K H) as (l & E1 & L & _). eauto.
Qed.
Definition fits {V} (cur : list (list V)) (s : seg) : Prop :=
  length cur = length (s_inputs s) /\ forall l row n, nth_error cur l = Some row -> nth_error (s_inputs s) l = Some n -> length row = n.
Lemma input_at_ok {V} (cur : list (list V)) s p : fits cur s -> pos_ok s p -> exists v, input_at cur p = Some v.
Proof.
  intros (L & H) (n & E & Hn). unfold input_at, aget.
  destruct (nth_error cur (fst p)) as [row|] eqn:Er.
  - cbn. specialize (H _ _ _ Er E). destruct (nth_error row (snd p)) eqn:Ev; eauto. apply nth_error_None in Ev. lia.
  - apply nth_error_None in Er. assert (fst p < length (s_inputs s)) by (apply nth_error_Some; congruence). lia.
Qed.
Lemma for_each_keeps {A S} (I : S -> Prop) (f : A -> S -> option S) l : forall s,
  I s -> (forall x s, In x l -> I s -> exists s', f x s = Some s' /\ I s') -> exists s', for_each l f s = Some s' /\ I s'.
Proof.
  induction l as [|a l IH]; intros s HI H; cbn; [eauto|].
  destruct (H a s) as (s1 & -> & H1); [now left|auto|]. cbn. apply IH; auto. intros x s2 Hx. apply H. now right.
Qed.
Lemma omap_some {A B} (f : A -> option B) l : (forall x, In x l -> exists y, f x = Some y) -> exists r, omap f l = Some r /\ length r = length l.
Proof.
  induction l as [|a l IH]; intros H; cbn; [eauto|]. destruct (H a) as (y & ->); [now left|]. destruct IH as (r & -> & L); [intros; apply H; now right|].
  cbn. eexists. split; [reflexivity|]. cbn. lia.
Qed.
Lemma omap_length {A B} (f : A -> option B) l r : omap f l = Some r -> length r = length l.
Proof.
  revert r. induction l as [|a l IH]; cbn; intros r H; [now injection H as <-|].
  destruct (f a); [|discriminate]. cbn in H. destruct (omap f l); [|discriminate]. cbn in H. injection H as <-. cbn. now rewrite IH.
Qed.
Lemma nth_error_combine {A B} (l : list A) (m : list B) i :
  nth_error (combine l m) i = match nth_error l i, nth_error m i with Some x, Some y => Some (x, y) | _, _ => None end.
Proof.
  revert m i. induction l as [|a l IH]; intros [|b m] [|i]; cbn; auto.
  - now destruct (nth_error l i).
Qed.
Lemma nth_error_seq0 n i : i < n -> nth_error (seq 0 n) i = Some i.
Proof. intros H. rewrite (nth_error_nth' _ 0) by (now rewrite seq_length). now rewrite seq_nth. Qed.
Lemma child_inputs_ok {V} (cur : list (list V)) s sub a : fits cur s -> length (s_inputs sub) <= length (s_inputs s) -> alloc_ok s sub a ->
  exists ins, child_inputs K a sub cur = Some ins /\ fits ins sub.
Proof.
  intros (L & H) LS (LA & HA & _). unfold child_inputs.
  destruct (omap_some (fun e : nat * (nat * nat) => let (l, ol) := e in let (off, len) := ol in
          let* row := aget cur l in slice row off (off + len))
       (combine (seq 0 (length (al_in a))) (combine (al_in a) (s_inputs sub)))) as (ins & E & LI).
  { intros (l & off & len) I. apply In_nth_error in I as (k & E). rewrite nth_error_combine in E.
    assert (Hk : k < length (al_in a)). { destruct (nth_error (seq 0 (length (al_in a))) k) eqn:Ek; [|discriminate].
      assert (k < length (seq 0 (length (al_in a)))) by (apply nth_error_Some; congruence). now rewrite seq_length in *. }
    rewrite nth_error_seq0, nth_error_combine in E by auto.
    destruct (nth_error (al_in a) k) as [x|] eqn:Ex; [|discriminate]. destruct (nth_error (s_inputs sub) k) as [y|] eqn:Ey; [|discriminate].
    injection E as <- <- <-. unfold aget. destruct (nth_error cur k) as [row|] eqn:Er.
    - cbn. destruct (nth_error (s_inputs s) k) as [z|] eqn:Ez.
      + rewrite slice_ok; eauto; [lia|]. rewrite (H _ _ _ Er Ez). eapply HA; eassumption.
      + apply nth_error_None in Ez. assert (k < length cur) by (apply nth_error_Some; congruence). lia.
    - apply nth_error_None in Er. lia. }
  exists ins. split; auto. rewrite combine_length, combine_length, seq_length, LA, !Nat.min_id in LI. split; auto.
  intros l row n Er En. pose proof (omap_nth _ _ _ l E) as Q. rewrite Er in Q.
  assert (Hl : l < length (al_in a)) by (rewrite LA, <- LI; apply nth_error_Some; congruence).
  rewrite nth_error_combine, nth_error_seq0, nth_error_combine, En in Q by auto.
  destruct (nth_error (al_in a) l) as [x|]; [|discriminate]. destruct (aget cur l) as [r|]; [|discriminate]. cbn in Q.
  symmetry in Q. apply slice_length in Q. lia.
Qed.

Hypothesis custom_ok : forall t ins, exists outs, custom t ins = Some outs /\ length outs <= 1.
Lemma apply_total segs pub : (forall i s, nth_error segs i = Some s -> seg_ok segs i s) -> (forall s, In s segs -> publics_in (length pub) s) ->
  forall fuel i s cur nxt, i < fuel -> nth_error segs i = Some s -> fits cur s -> length nxt = s_outputs s ->
  exists nxt', apply_segment K rnd custom fuel segs pub s cur nxt = Some nxt' /\ length nxt' = s_outputs s.
Proof.
  intros HS HP. induction fuel as [|fuel IH]; intros i s cur nxt Hi Ei HF HL; [lia|].
  destruct (HS i s Ei) as (_ & _ & _ & HM & HA & HC & HU & HCh).
  destruct (HP s) as (PM & PA & PC & PU); [eapply nth_error_In; eassumption|].
  cbn [apply_segment].
  destruct (for_each_keeps (fun n : list K => length n = s_outputs s) (fun m nxt =>
        let* x := input_at cur (m_in0 m) in let* y := input_at cur (m_in1 m) in let* k := coef_value K rnd pub (m_coef m) in
        bump K nxt (m_out m) (x * y * k)%K) (s_muls s) nxt HL) as (n1 & -> & L1).
  { intros m n I HI. destruct (HM m I) as (P0 & P1 & O). destruct (input_at_ok cur s _ HF P0) as (x & ->).
    destruct (input_at_ok cur s _ HF P1) as (y & ->). destruct (coef_value_ok pub _ (PM m I)) as (k & ->). cbn [obind].
    destruct (bump_ok n (m_out m) (x * y * k)%K) as (n' & -> & L'); [lia|]. exists n'. split; auto. lia. }
  cbn [obind].
  destruct (for_each_keeps (fun n : list K => length n = s_outputs s) (fun a nxt =>
        let* x := input_at cur (a_in a) in let* k := coef_value K rnd pub (a_coef a) in bump K nxt (a_out a) (x * k)%K) (s_adds s) n1 L1) as (n2 & -> & L2).
  { intros a n I HI. destruct (HA a I) as (P0 & O). destruct (input_at_ok cur s _ HF P0) as (x & ->).
    destruct (coef_value_ok pub _ (PA a I)) as (k & ->). cbn [obind].
    destruct (bump_ok n (a_out a) (x * k)%K) as (n' & -> & L'); [lia|]. exists n'. split; auto. lia. }
  cbn [obind].
  destruct (for_each_keeps (fun n : list K => length n = s_outputs s) (fun g nxt => let* k := coef_value K rnd pub (k_coef g) in bump K nxt (k_out g) k)
       (s_consts s) n2 L2) as (n3 & -> & L3).
  { intros g n I HI. pose proof (HC g I) as O. destruct (coef_value_ok pub _ (PC g I)) as (k & ->). cbn [obind].
    destruct (bump_ok n (k_out g) k) as (n' & -> & L'); [lia|]. exists n'. split; auto. lia. }
  cbn [obind].
  destruct (for_each_keeps (fun n : list K => length n = s_outputs s) (fun u nxt =>
        let* ins := omap (input_at cur) (u_in u) in
        let* outs := custom (u_type u) ins in
        for_each (combine (seq 0 (length outs)) outs) (fun (e : nat * K) nxt =>
          let* k := coef_value K rnd pub (u_coef u) in bump K nxt (u_out u + fst e) (snd e * k)%K) nxt) (s_customs s) n3 L3) as (n4 & -> & L4).
  { intros u n I HI. destruct (HU u I) as (P0 & O). destruct (omap_some (input_at cur) (u_in u)) as (ins & -> & _).
    { intros p Ip. eapply input_at_ok; eauto. }
    cbn [obind]. destruct (custom_ok (u_type u) ins) as (outs & -> & LO). cbn [obind].
    apply (for_each_keeps (fun n : list K => length n = s_outputs s)); auto.
    intros (j, v) m Ij HI2. apply in_combine_l, in_seq in Ij. destruct (coef_value_ok pub _ (PU u I)) as (k & ->). cbn [obind fst snd].
    destruct (bump_ok m (u_out u + j) (v * k)%K) as (n' & -> & L'); [lia|]. exists n'. split; auto. lia. }
  cbn [obind].
  apply (for_each_keeps (fun n : list K => length n = s_outputs s)); auto.
  intros ch n I HI. destruct (HCh ch I) as (LT & sub & Es & LS & HAl). unfold aget. rewrite Es. cbn [obind].
  apply (for_each_keeps (fun n : list K => length n = s_outputs s)); auto.
  intros a m Ia HI2. destruct (child_inputs_ok cur s sub a HF LS (HAl a Ia)) as (ins & -> & FI). cbn [obind].
  destruct (HAl a Ia) as (_ & _ & LO).
  rewrite slice_ok by lia. cbn [obind].
  destruct (IH (fst ch) sub ins (firstn (al_out a + s_outputs sub - al_out a) (skipn (al_out a) m))) as (out & -> & LOut).
  { lia. } { exact Es. } { exact FI. } { rewrite firstn_length, skipn_length. lia. }
  cbn [obind]. eexists. split; [reflexivity|]. rewrite splice_length; lia.
Qed.

Lemma layer_inputs_ok {V} (c : circuit K) (cur : list (list V)) n0 s :
  length (s_inputs s) <= length cur ->
  (forall i row, nth_error cur i = Some row -> size_at c n0 i = Some (length row)) ->
  (forall j x, nth_error (s_inputs s) j = Some x -> size_at c n0 (length cur - 1 - j) = Some x) ->
  exists ins, layer_inputs K s cur = Some ins /\ fits ins s.
Proof.
  intros L HC HS. unfold layer_inputs.
  destruct (omap_some (fun i => let* _ := guard (i + 1 <=? length cur) in aget cur (length cur - i - 1)) (seq 0 (length (s_inputs s)))) as (ins & E & LI).
  { intros i I. apply in_seq in I. replace (i + 1 <=? length cur) with true by (symmetry; apply Nat.leb_le; lia). cbn [guard obind].
    unfold aget. destruct (nth_error cur (length cur - i - 1)) eqn:E; eauto. apply nth_error_None in E. lia. }
  exists ins. split; auto. rewrite seq_length in LI. split; auto. intros l row n Er En.
  pose proof (omap_nth _ _ _ l E) as Q. rewrite Er in Q. assert (Hl : l < length (s_inputs s)) by (apply nth_error_Some; congruence).
  rewrite nth_error_seq0 in Q by auto. destruct (guard (l + 1 <=? length cur)); [|discriminate]. cbn [obind] in Q. symmetry in Q.
  apply HC in Q. specialize (HS l n En). replace (length cur - 1 - l) with (length cur - l - 1) in HS by lia. congruence.
Qed.
Lemma eval_layers_ok (c : circuit K) inputs pub n0 : circuit_ok c -> (forall s, In s (c_segments c) -> publics_in (length pub) s) ->
  input_size K c = Some n0 -> length inputs = n0 ->
  exists cur, eval_layers K rnd custom c inputs pub = Some cur /\ length cur = S (length (c_layers c)) /\
    forall i row, nth_error cur i = Some row -> size_at c n0 i = Some (length row).
Proof.
  intros (HS & _ & n & En & HL) HP E0 HI. assert (n = n0) by congruence. subst n.
  unfold eval_layers. rewrite E0. cbn [obind]. rewrite HI, Nat.eqb_refl. cbn [guard obind].
  apply (for_each_rule (fun done cur => length cur = S (length done) /\
    forall i row, nth_error cur i = Some row -> size_at c n0 i = Some (length row))).
  { split; auto. intros [|i] row E; cbn in E; [injection E as <-; cbn; congruence|]. destruct i; discriminate. }
  intros done id rest cur El (LC & HC).
  assert (Eid : nth_error (c_layers c) (length done) = Some id) by (rewrite El, nth_error_app2, Nat.sub_diag; auto).
  destruct (HL _ _ Eid) as (s & Es & Ls & Hs). unfold aget at 1. rewrite Es. cbn [obind].
  destruct (layer_inputs_ok c cur n0 s) as (ins & -> & HF); [lia|auto|now rewrite LC; cbn [Nat.sub]; rewrite Nat.sub_0_r|].
  cbn [obind]. assert (Hid : id < length (c_segments c)) by (apply nth_error_Some; congruence).
  destruct (apply_total (c_segments c) pub HS HP (S (length (c_segments c))) id s ins (repeat f0 (s_outputs s))) as (nxt & -> & LN);
    [lia|auto|auto|now rewrite repeat_length|]. cbn [obind]. eexists. split; [reflexivity|]. rewrite !app_length. cbn [length].
  split; [lia|]. intros i row E. destruct (Nat.lt_ge_cases i (length cur)) as [Hi|Hi].
  - rewrite nth_error_app1 in E by auto. auto.
  - rewrite nth_error_app2 in E by auto. destruct (i - length cur) as [|k] eqn:Ek; cbn in E; [|destruct k; discriminate].
    injection E as <-. assert (i = S (length done)) by lia. subst i. unfold size_at. rewrite Eid, Es. cbn. now rewrite LN.
Qed.
Definition last_size (c : circuit K) : option nat := option_map s_outputs (nth_error (c_segments c) (last (c_layers c) 0)).
Lemma last_nth_error {A} (l : list A) d : l <> [] -> nth_error l (length l - 1) = Some (last l d).
Proof.
  intros H. destruct (exists_last H) as (m & x & ->). rewrite last_last, app_length, nth_error_app2 by (cbn; lia).
  cbn. replace (length m + 1 - 1 - length m) with 0 by lia. reflexivity.
Qed.
Lemma size_at_last (c : circuit K) n0 : c_layers c <> [] -> size_at c n0 (length (c_layers c)) = last_size c.
Proof.
  intros H. unfold size_at, last_size. destruct (length (c_layers c)) as [|k] eqn:E; [destruct (c_layers c); [tauto|discriminate]|].
  replace k with (length (c_layers c) - 1) by lia. now rewrite (last_nth_error _ 0 H).
Qed.
Lemma eval_total (c : circuit K) inputs pub n m : validate K c = Some true -> (forall s, In s (c_segments c) -> publics_in (length pub) s) ->
  input_size K c = Some n -> length inputs = n -> last_size c = Some m -> c_zeroes c <= c_actual_outputs c <= m ->
  exists outs ok, eval_with_public_inputs K rnd custom c inputs pub = Some (outs, ok) /\ length outs = c_actual_outputs c - c_zeroes c.
Proof.
  intros HV HP En Hn Em Hm. apply validate_ok in HV. destruct (eval_layers_ok c inputs pub n HV HP En Hn) as (cur & E & L & HC).
  unfold eval_with_public_inputs. rewrite E. cbn [obind]. unfold aget. destruct (nth_error cur (length cur - 1)) as [row|] eqn:Er.
  - cbn [obind]. replace (length cur - 1) with (length (c_layers c)) in Er by lia. apply HC in Er. rewrite size_at_last, Em in Er by apply HV.
    injection Er as ->. rewrite slice_ok by lia. cbn [obind]. eexists _, _. split; [reflexivity|]. rewrite firstn_length, skipn_length. lia.
  - apply nth_error_None in Er. lia.
Qed.
Lemma last_size_ok (c : circuit K) : validate K c = Some true -> exists m, last_size c = Some m.
Proof.
  intros HV. apply validate_ok in HV as (_ & HN & n0 & _ & HL). destruct (HL _ _ (last_nth_error (c_layers c) 0 HN)) as (s & E & _).
  unfold last_size. rewrite E. cbn. eauto.
Qed.
Lemma input_size_ok (c : circuit K) : validate K c = Some true -> exists n, input_size K c = Some n.
Proof. intros HV. apply validate_ok in HV as (_ & _ & n0 & E & _). eauto. Qed.
Lemma values_total (c : circuit K) inputs pub n m : validate K c = Some true -> (forall s, In s (c_segments c) -> publics_in (length pub) s) ->
  input_size K c = Some n -> length inputs = n -> last_size c = Some m -> c_zeroes c <= m ->
  exists outs, eval_constraint_values K rnd custom c inputs pub = Some outs /\ length outs = c_zeroes c.
Proof.
  intros HV HP En Hn Em Hm. apply validate_ok in HV. destruct (eval_layers_ok c inputs pub n HV HP En Hn) as (cur & E & L & HC).
  unfold eval_constraint_values. rewrite E. cbn [obind]. unfold aget. destruct (nth_error cur (length cur - 1)) as [row|] eqn:Er.
  - cbn [obind]. replace (length cur - 1) with (length (c_layers c)) in Er by lia. apply HC in Er. rewrite size_at_last, Em in Er by apply HV.
    injection Er as ->. rewrite slice_ok by lia. eexists. split; [reflexivity|]. rewrite firstn_length, skipn_length. lia.
  - apply nth_error_None in Er. lia.
Qed.
End Proofs.
