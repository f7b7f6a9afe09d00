From Coq Require Import ZArith List Bool Znumtheory Lia.
From Verif Require Import Spec.Numbers Model.Builder Model.Gadgets Model.Layers Proofs.Builder
  Proofs.RangeCheck Proofs.Gadgets Proofs.Division.
Import ListNotations.
Local Open Scope Z_scope.

(** The integers a range check of [n] bits lets through. *)
Definition rci (c n : nat) (x : Z) : Prop := pow2 n - pow2 (rounded c n) <= x < pow2 n.

Section L.
Variable p : Z.
Hypothesis Hprime : prime p.
Variable c : nat.
Hypothesis Hc : (0 < c)%nat.
Variable F : nat -> list (list Z).
Notation acc := (accepts p (table_rows c F)).

Lemma L_p2 : 2 <= p. Proof using Hprime. apply prime_ge_2; auto. Qed.

Lemma rc_int n z : width_ok c n -> pow2 n - p <= z < p + pow2 n - pow2 (rounded c n) ->
  pow2 (rounded c n) <= p ->
  acc (range_check p c (enc p z) n) tt <-> rci c n z.
Proof.
  intros Hw Hz Hp. pose proof L_p2 as H2. rewrite rc_enc by auto. split.
  - intros (x & Hx & E). apply enc_inj in E; [|lia|lia]. now subst.
  - intros H. exists z. auto.
Qed.

Lemma rci_exact n x : (n mod c = 0)%nat -> rci c n x <-> 0 <= x < pow2 n.
Proof. intros H. unfold rci. rewrite rounded_exact by auto. rewrite Z.sub_diag. tauto. Qed.

Lemma rc_of n z : width_ok c n -> pow2 (rounded c n) <= p -> 0 <= z < p ->
  acc (range_check p c z n) tt -> exists x, rci c n x /\ z = enc p x.
Proof.
  intros Hw Hp Hz H. pose proof L_p2. rewrite <- (enc_id p z Hz) in H. apply rc_enc in H; auto.
  destruct H as (x & Hx & E). exists x. split; auto. rewrite <- E. symmetry. apply enc_id; auto.
Qed.

(** ** is_zero *)
Lemma mul_zero a b : mul p a b = 0 -> 0 <= a < p -> 0 <= b < p -> a = 0 \/ b = 0.
Proof.
  intros E Ha Hb. pose proof L_p2. unfold mul in E. apply Z.mod_divide in E; [|lia].
  apply prime_mult in E; auto. destruct E as [(k & Hk)|(k & Hk)]; [left|right]; assert (k = 0) by nia; lia.
Qed.

Lemma is_zero_acc x m : 0 <= x < p -> acc (is_zero p x) m <-> m = if x =? 0 then 1 else 0.
Proof.
  intros Hx. pose proof L_p2 as H2. unfold is_zero. rewrite accepts_bind. split.
  - intros (inv & Hi & H). apply accepts_hint1 in Hi. apply accepts_bind in H as ([] & Hz & H).
    apply accepts_assert_zero in Hz. apply accepts_ret in H. subst m.
    destruct (Z.eqb_spec x 0) as [->|Hn].
    + unfold sub, mul, const. rewrite Z.mul_0_l, Zmod_0_l, Z.sub_0_r, Zmod_mod. apply Z.mod_small. lia.
    + apply mul_zero in Hz; auto; [lia|]. unfold sub. apply Z.mod_pos_bound. lia.
  - intros ->. destruct (Z.eqb_spec x 0) as [->|Hn].
    + exists 0. split; [apply accepts_hint1; lia|]. apply accepts_bind. exists tt.
      split; [apply accepts_assert_zero; unfold mul; now rewrite Z.mul_0_l, Zmod_0_l|].
      apply accepts_ret. unfold sub, mul, const. rewrite Z.mul_0_l, Zmod_0_l, Z.sub_0_r, Zmod_mod. apply Z.mod_small. lia.
    + assert (R : rel_prime x p).
      { apply rel_prime_sym. apply prime_rel_prime; auto. intros (k & Hk). assert (k = 0) by nia. lia. }
      apply rel_prime_bezout in R as [u v B].
      exists (u mod p). split; [apply accepts_hint1; apply Z.mod_pos_bound; lia|].
      assert (E1 : mul p x (u mod p) = 1).
      { unfold mul. rewrite Zmult_mod_idemp_r. replace (x * u) with (1 + (- v) * p) by lia.
        rewrite Z_mod_plus_full. apply Z.mod_small. lia. }
      rewrite E1. assert (E2 : sub p (const p 1) 1 = 0).
      { unfold sub, const. rewrite (Z.mod_small 1) by lia. now rewrite Z.sub_diag, Zmod_0_l. }
      rewrite E2. apply accepts_bind. exists tt.
      split; [apply accepts_assert_zero; unfold mul; now rewrite Z.mul_0_r, Zmod_0_l|]. apply accepts_ret. auto.
Qed.

Lemma mul_range a b : 0 <= mul p a b < p.
Proof. pose proof L_p2. apply Z.mod_pos_bound. lia. Qed.
Lemma sub_range a b : 0 <= sub p a b < p.
Proof. pose proof L_p2. apply Z.mod_pos_bound. lia. Qed.
Lemma add_range a b : 0 <= add p a b < p.
Proof. pose proof L_p2. apply Z.mod_pos_bound. lia. Qed.
Lemma mul_0_left b : mul p 0 b = 0. Proof. unfold mul. now rewrite Z.mul_0_l, Zmod_0_l. Qed.

Lemma sub_eq0 a b : 0 <= a < p -> 0 <= b < p -> (sub p a b = 0 <-> a = b).
Proof.
  intros Ha Hb. pose proof L_p2. unfold sub. split.
  - intros E. apply Z.mod_divide in E; [|lia]. destruct E as (k & Hk). assert (k = 0) by nia. lia.
  - intros ->. now rewrite Z.sub_diag, Zmod_0_l.
Qed.

Lemma sub_eq0_l a b : sub p a b = 0 -> 0 <= a < p -> 0 <= b < p -> a = b.
Proof. intros. apply sub_eq0; auto. Qed.

Lemma fold_prod_zero A (f : A -> Z) l : forall m, 0 <= m < p -> (forall a, 0 <= f a < p) ->
  fold_left (fun m a => mul p m (f a)) l m = 0 <-> m = 0 \/ exists a, In a l /\ f a = 0.
Proof.
  induction l as [|a l IH]; intros m Hm Hf; cbn.
  - split; [auto|intros [?|(? & [] & _)]; auto].
  - rewrite IH by (auto; apply mul_range). split.
    + intros [E|(b & Hb & E)]; [|right; eauto]. apply mul_zero in E; auto. destruct E; [auto|right; eauto].
    + intros [->|(b & [->|Hb] & E)]; [left; apply mul_0_left| |right; eauto].
      left. rewrite E. unfold mul. now rewrite Z.mul_0_r, Zmod_0_l.
Qed.

Lemma one_range : 0 <= const p 1 < p /\ const p 1 <> 0.
Proof. pose proof L_p2. unfold const. rewrite Z.mod_small; lia. Qed.

Lemma member_prod_zero v lane : 0 <= v < p -> Forall (fun e => 0 <= e < p) lane ->
  member_prod p v lane = 0 <-> In v lane.
Proof.
  intros Hv Hl. destruct one_range as (O1 & O2). unfold member_prod.
  rewrite (fold_prod_zero Z (fun e => sub p v e)); [|exact O1|intros; apply sub_range]. split.
  - intros [?|(e & He & E)]; [contradiction|]. rewrite Forall_forall in Hl.
    apply sub_eq0_l in E; auto. now subst.
  - intros H. right. exists v. split; auto. apply sub_eq0; auto.
Qed.

Lemma sel_prod_zero vs e : 0 <= e < p -> Forall (fun v => 0 <= v < p) vs ->
  sel_prod p vs e = 0 <-> In e vs.
Proof.
  intros Hv Hl. destruct one_range as (O1 & O2). unfold sel_prod.
  rewrite (fold_prod_zero Z (fun v => sub p v e)); [|exact O1|intros; apply sub_range]. split.
  - intros [?|(v & He & E)]; [contradiction|]. rewrite Forall_forall in Hl.
    apply sub_eq0_l in E; auto. now subst.
  - intros H. right. exists e. split; auto. apply sub_eq0; auto.
Qed.

Lemma fold_mul_range A (f : A -> Z) l m : 0 <= m < p -> 0 <= fold_left (fun m a => mul p m (f a)) l m < p.
Proof. revert m. induction l; cbn; auto. intros. apply IHl. apply mul_range. Qed.

(** ** TopK *)
Lemma topk_bound_acc nb vs mv e u : 0 <= e < p -> 0 <= mv < p -> Forall (fun v => 0 <= v < p) vs ->
  acc (topk_bound p c nb vs mv e) u <->
  (In e vs /\ acc (range_check p c 0 (nb + 1)) u) \/ (~ In e vs /\ acc (range_check p c (sub p mv e) (nb + 1)) u).
Proof.
  intros He Hm Hv. pose proof L_p2 as H2. unfold topk_bound. rewrite accepts_bind.
  assert (R : 0 <= sel_prod p vs e < p) by (apply (fold_mul_range Z (fun v => sub p v e)); apply one_range).
  pose proof (sel_prod_zero vs e He Hv) as S.
  assert (One : const p 1 = 1) by (unfold const; apply Z.mod_small; lia).
  assert (K0 : mul p (sub p (const p 1) 1) (sub p mv e) = 0)
    by (rewrite One; unfold sub at 1; rewrite Z.sub_diag, Zmod_0_l; apply mul_0_left).
  assert (K1 : mul p (sub p (const p 1) 0) (sub p mv e) = sub p mv e).
  { rewrite One. unfold sub at 1. rewrite Z.sub_0_r, (Z.mod_small 1) by lia. unfold mul. rewrite Z.mul_1_l.
    apply Z.mod_small. apply sub_range. }
  split.
  - intros (m & Hz & H). apply is_zero_acc in Hz; auto. subst m.
    destruct (Z.eqb_spec (sel_prod p vs e) 0) as [E|N]; [left|right]; (split; [intuition|]).
    + rewrite K0 in H. exact H.
    + rewrite K1 in H. exact H.
  - intros [(I & H)|(I & H)].
    + exists 1. split; [apply is_zero_acc; auto; apply S in I; rewrite I; reflexivity|]. rewrite K0. exact H.
    + exists 0. split; [apply is_zero_acc; auto; destruct (Z.eqb_spec (sel_prod p vs e) 0); intuition|]. rewrite K1. exact H.
Qed.

(** The selection loop reads [lane] at the index. *)
Lemma select_acc idx a lane s m r : 0 <= idx < p -> Forall (fun e => 0 <= e < p) lane ->
  0 <= a -> a + zn (length lane) <= p -> 0 <= s < p -> 0 <= m < p ->
  acc (topk_select p idx a lane s m) r <->
  r = if (a <=? idx) && (idx <? a + zn (length lane))
      then (add p s (nth (Z.to_nat (idx - a)) lane 0), add p m 1) else (s, m).
Proof.
  intros Hi Hl. pose proof L_p2 as H2. revert a s m r. induction Hl as [|e lane He Hl IH]; intros a s m r Ha Hn Hs Hm.
  - cbn [topk_select length]. rewrite accepts_ret. unfold zn. cbn.
    replace ((a <=? idx) && (idx <? a + 0)) with false; [intuition|].
    symmetry. apply andb_false_iff. destruct (Z.leb_spec a idx), (Z.ltb_spec idx (a + 0)); auto; lia.
  - cbn [topk_select length]. cbn [length] in Hn. unfold zn in *. rewrite Nat2Z.inj_succ in *.
    assert (Ea : const p a = a) by (unfold const; apply Z.mod_small; lia).
    rewrite accepts_bind. rewrite Ea.
    assert (B : forall m0, acc (is_zero p (sub p idx a)) m0 <-> m0 = if idx =? a then 1 else 0).
    { intros m0. rewrite is_zero_acc by apply sub_range.
      destruct (Z.eqb_spec (sub p idx a) 0) as [E|E].
      - apply sub_eq0_l in E; try lia. subst. rewrite Z.eqb_refl. tauto.
      - destruct (Z.eqb_spec idx a); [|tauto]. subst. exfalso. apply E. apply sub_eq0; lia. }
    assert (W : forall m0 r0, (m0 = if idx =? a then 1 else 0) ->
       (acc (topk_select p idx (a + 1) lane (add p s (mul p m0 e)) (add p m m0)) r0 <->
        r0 = if (a <=? idx) && (idx <? a + Z.succ (Z.of_nat (length lane)))
      then (add p s (nth (Z.to_nat (idx - a)) (e :: lane) 0), add p m 1) else (s, m))).
    { intros m0 r0 Em. rewrite IH by (try apply add_range; lia).
      destruct (Z.eqb_spec idx a) as [E|E].
      - subst. rewrite (proj2 (Z.leb_gt (a + 1) a)) by lia. cbn [andb].
        rewrite Z.leb_refl, (proj2 (Z.ltb_lt a _)) by lia. cbn [andb].
        rewrite Z.sub_diag. cbn [Z.to_nat nth].
        assert (E1 : mul p 1 e = e) by (unfold mul; rewrite Z.mul_1_l; apply Z.mod_small; lia).
        rewrite E1. tauto.
      - subst m0. rewrite mul_0_left.
        assert (E1 : add p s 0 = s) by (unfold add; rewrite Z.add_0_r; apply Z.mod_small; lia).
        assert (E2 : add p m 0 = m) by (unfold add; rewrite Z.add_0_r; apply Z.mod_small; lia).
        rewrite E1, E2.
        replace ((a <=? idx) && (idx <? a + Z.succ (Z.of_nat (length lane))))
          with ((a + 1 <=? idx) && (idx <? a + 1 + Z.of_nat (length lane))).
        2:{ destruct (Z.leb_spec (a + 1) idx), (Z.leb_spec a idx), (Z.ltb_spec idx (a + 1 + Z.of_nat (length lane))),
              (Z.ltb_spec idx (a + Z.succ (Z.of_nat (length lane)))); cbn; auto; lia. }
        destruct (Z.leb_spec (a + 1) idx); cbn [andb]; [|tauto].
        replace (Z.to_nat (idx - a)) with (S (Z.to_nat (idx - (a + 1)))) by lia. cbn [nth]. tauto. }
    split.
    + intros (m0 & Hz & H). apply B in Hz. apply (W m0) in H; auto.
    + intros ->. exists (if idx =? a then 1 else 0). split; [apply B; auto|]. apply W; auto.
Qed.

Lemma topk_index_acc lane idx v u : 0 <= idx < p -> 0 <= v < p -> Forall (fun e => 0 <= e < p) lane ->
  zn (length lane) <= p -> width_ok c (topk_idx_bits (length lane)) ->
  pow2 (rounded c (topk_idx_bits (length lane))) <= p ->
  acc (topk_index p c lane idx v) u <->
  idx < zn (length lane) /\ v = nth (Z.to_nat idx) lane 0.
Proof.
  intros Hi Hv Hl Hn Hw Hr. pose proof L_p2 as H2. unfold topk_index. rewrite accepts_bind.
  assert (O0 : 0 <= const p 0 < p) by (unfold const; rewrite Zmod_0_l; lia).
  assert (Z0 : const p 0 = 0) by apply Zmod_0_l.
  assert (One : const p 1 = 1) by (unfold const; apply Z.mod_small; lia).
  assert (A1 : add p 0 1 = 1) by (unfold add; apply Z.mod_small; lia).
  split.
  - intros ([] & _ & H). apply accepts_bind in H as ([] & _ & H).
    apply accepts_bind in H as (r & Hs & H). apply select_acc in Hs; auto; try lia.
    apply accepts_bind in H as ([] & Hm & H). apply accepts_assert_eq in Hm, H.
    rewrite Z.add_0_l, Z.sub_0_r, Z0, One in *.
    destruct (Z.leb_spec 0 idx), (Z.ltb_spec idx (zn (length lane))); cbn [andb] in Hs; subst r; cbn in Hm, H; try lia.
    split; auto. rewrite <- H. unfold add. rewrite Z.add_0_l. apply Z.mod_small.
    rewrite Forall_forall in Hl. apply Hl. apply nth_In. unfold zn in *. lia.
  - intros (Hlt & ->).
    assert (B : zn (length lane) - 1 < pow2 (topk_idx_bits (length lane))).
    { unfold topk_idx_bits. set (d := zn (length lane)) in *.
      apply Z.lt_le_trans with (pow2 (bit_length (d - 1))).
      - unfold bit_length. destruct (Z.eqb_spec (d - 1) 0) as [E|E]; [rewrite E; reflexivity|].
        unfold pow2, zn. rewrite Z2Nat.id by (pose proof (Z.log2_nonneg (d - 1)); lia).
        apply Z.log2_spec. lia.
      - unfold pow2. apply Z.pow_le_mono_r; [lia|]. unfold zn. lia. }
    assert (Rp : pow2 (topk_idx_bits (length lane)) <= pow2 (rounded c (topk_idx_bits (length lane)))).
    { apply Z.pow_le_mono_r; [lia|]. unfold zn. pose proof (rounded_ge c (topk_idx_bits (length lane))). lia. }
    exists tt. split.
    { rewrite <- (enc_id p idx Hi). apply rc_slack; auto. lia. }
    apply accepts_bind. exists tt. split.
    { change (const p (zn (length lane) - 1)) with (enc p (zn (length lane) - 1)).
      rewrite <- (enc_id p idx Hi), sub_enc. apply rc_slack; auto. lia. }
    apply accepts_bind. exists (nth (Z.to_nat idx) lane 0, 1). split.
    { apply select_acc; auto; try lia. rewrite Z.add_0_l, Z.sub_0_r, Z0, A1.
      rewrite (proj2 (Z.leb_le 0 idx)), (proj2 (Z.ltb_lt idx _)) by lia. cbn [andb]. f_equal.
      unfold add. rewrite Z.add_0_l. symmetry. apply Z.mod_small. auto. }
    apply accepts_bind. exists tt. split; apply accepts_assert_eq; auto.
Qed.

(** What one lane accepts, on signed integers.  [vs] are the output values,
    [is] the output indices. *)
Definition topk_ok (R : Z -> Prop) (lane : list Z) (k : nat) (vs : list Z) (is : list nat) : Prop :=
  length vs = k /\ length is = k /\
  (forall j, (j < k)%nat -> (nth j is 0%nat < length lane)%nat /\ nth j vs 0 = nth (nth j is 0%nat) lane 0) /\
  (forall e, In e lane -> ~ In e vs -> R (nth (k - 1) vs 0 - e)).

Lemma nth_combine_Forall A B (P : A * B -> Prop) (l : list A) (m : list B) da db :
  length l = length m -> Forall P (combine l m) <-> forall j, (j < length l)%nat -> P (nth j l da, nth j m db).
Proof.
  intros E. rewrite Forall_forall. split.
  - intros H j Hj. apply H. rewrite <- combine_nth by auto. apply nth_In. rewrite combine_length. lia.
  - intros H x Hx. apply (In_nth _ _ (da, db)) in Hx as (j & Hj & <-).
    rewrite combine_length in Hj. rewrite combine_nth by auto. apply H. lia.
Qed.

Theorem topk_lane_acc nb k scale lane V I s :
  (0 < k)%nat -> nb = S s -> (forall e, In e lane -> signed_fits s e) ->
  width_ok c (nb + 1) -> pow2 (rounded c (nb + 1)) + pow2 nb <= p ->
  zn (length lane) <= p -> width_ok c (topk_idx_bits (length lane)) ->
  pow2 (rounded c (topk_idx_bits (length lane))) <= p ->
  acc (topk_lane p c nb k scale (map (enc p) lane)) (V, I) <->
  exists vs is, V = map (enc p) vs /\ I = map Z.of_nat is /\ topk_ok (rci c (nb + 1)) lane k vs is.
Proof.
  intros Hk Hnb Hfit Hw Hp Hd Hwi Hpi. pose proof L_p2 as H2.
  assert (Hpow : pow2 (nb + 1) = 2 * pow2 nb) by (rewrite pow2_add; change (pow2 1) with 2; ring).
  assert (Hpow' : pow2 nb = 2 * pow2 s) by (subst nb; apply pow2_S).
  pose proof (pow2_pos s) as Ps.
  assert (Rp : pow2 (nb + 1) <= pow2 (rounded c (nb + 1))).
  { apply Z.pow_le_mono_r; [lia|]. unfold zn. pose proof (rounded_ge c (nb + 1)). lia. }
  assert (Hfit' : forall e, In e lane -> - pow2 s <= e < pow2 s) by exact Hfit.
  assert (Rl : Forall (fun e => 0 <= e < p) (map (enc p) lane)).
  { apply Forall_map. apply Forall_forall. intros. apply enc_range. lia. }
  unfold topk_lane. destruct (Nat.eqb_spec k 0) as [|_]; [lia|].
  rewrite accepts_bind. split.
  - intros (out & Ho & H). apply accepts_hintn in Ho as (Hlen & Hof).
    set (values := firstn k out) in *. set (indices := skipn k out) in *.
    assert (Lv : length values = k) by (unfold values; rewrite firstn_length; lia).
    assert (Li : length indices = k) by (unfold indices; rewrite skipn_length; lia).
    assert (Fv : Forall (fun v => 0 <= v < p) values)
      by (apply Forall_forall; intros v Hv; rewrite Forall_forall in Hof; apply Hof; rewrite <- (firstn_skipn k out); apply in_or_app; auto).
    assert (Fi : Forall (fun v => 0 <= v < p) indices)
      by (apply Forall_forall; intros v Hv; rewrite Forall_forall in Hof; apply Hof; rewrite <- (firstn_skipn k out); apply in_or_app; auto).
    apply accepts_bind in H as ([] & Hbound & H). apply accepts_bind in H as ([] & _ & H).
    apply accepts_bind in H as ([] & _ & H). apply accepts_bind in H as ([] & Hidx & H).
    apply accepts_ret in H. injection H as EV EI. subst V I.
    apply accepts_forM in Hbound, Hidx.
    rewrite (nth_combine_Forall _ _ _ _ _ 0 0) in Hidx by lia. rewrite Li in Hidx. cbn [fst snd] in Hidx.
    assert (Hj : forall j, (j < k)%nat -> nth j indices 0 < zn (length lane) /\ 0 <= nth j indices 0 /\
       nth j values 0 = enc p (nth (Z.to_nat (nth j indices 0)) lane 0)).
    { intros j Hj. specialize (Hidx j Hj). rewrite Forall_forall in Fi, Fv.
      assert (Ri : 0 <= nth j indices 0 < p) by (apply Fi, nth_In; lia).
      assert (Rv : 0 <= nth j values 0 < p) by (apply Fv, nth_In; lia).
      apply topk_index_acc in Hidx; auto; rewrite ?map_length in *; auto.
      destruct Hidx as (A & B). split; auto. split; [lia|]. rewrite B.
      rewrite (nth_indep _ 0 (enc p 0)); [apply map_nth|]. rewrite map_length. unfold zn in A. lia. }
    set (is := map Z.to_nat indices). set (vs := map (fun i => nth i lane 0) is).
    assert (Lis : length is = k) by (unfold is; rewrite map_length; auto).
    assert (Lvs : length vs = k) by (unfold vs; rewrite map_length; auto).
    assert (Nis : forall j, (j < k)%nat -> nth j is 0%nat = Z.to_nat (nth j indices 0)).
    { intros j Hj'. unfold is. rewrite (nth_indep _ 0%nat (Z.to_nat 0)) by (rewrite map_length; lia). apply map_nth. }
    assert (Nvs : forall j, (j < k)%nat -> nth j vs 0 = nth (nth j is 0%nat) lane 0).
    { intros j Hj'. unfold vs. rewrite (nth_indep _ 0 ((fun i => nth i lane 0) 0%nat)) by (rewrite map_length; lia).
      apply (map_nth (fun i => nth i lane 0)). }
    assert (EV : values = map (enc p) vs).
    { apply nth_ext with (d := 0) (d' := enc p 0); [rewrite map_length; lia|]. intros j Hj'. rewrite Lv in Hj'.
      rewrite map_nth, Nvs, Nis by auto. apply Hj. auto. }
    assert (EI : indices = map Z.of_nat is).
    { unfold is. rewrite map_map. rewrite <- (map_id indices) at 1. apply map_ext_in. intros x Hx.
      rewrite Forall_forall in Fi. specialize (Fi x Hx). rewrite Z2Nat.id; lia. }
    exists vs, is. split; [exact EV|]. split; [exact EI|].
    split; [auto|]. split; [auto|]. split.
    { intros j Hj'. split; [|apply Nvs; auto]. rewrite Nis by auto. destruct (Hj j Hj') as (A & B & _). unfold zn in A. lia. }
    intros e He Hne. rewrite Forall_forall in Hbound.
    specialize (Hbound (enc p e) (in_map _ _ _ He)).
    assert (Rlast : In (nth (k - 1) vs 0) lane).
    { rewrite Nvs by lia. apply nth_In. rewrite Nis by lia. destruct (Hj (k - 1)%nat ltac:(lia)) as (A & B & _). unfold zn in A. lia. }
    assert (Elast : nth (k - 1) values 0 = enc p (nth (k - 1) vs 0)).
    { rewrite EV. rewrite (nth_indep _ 0 (enc p 0)) by (rewrite map_length; lia). apply map_nth. }
    apply topk_bound_acc in Hbound; auto; [|apply enc_range; lia|rewrite Elast; apply enc_range; lia].
    destruct Hbound as [(Hin & _)|(_ & Hr)].
    + exfalso. rewrite EV in Hin. apply in_map_iff in Hin as (v & Ev & Hv).
      assert (Hv' : In v lane).
      { apply (In_nth _ _ 0) in Hv as (j & Hj' & <-). rewrite Lvs in Hj'. rewrite Nvs by auto. apply nth_In.
        rewrite Nis by auto. destruct (Hj j Hj') as (A & B & _). unfold zn in A. lia. }
      pose proof (Hfit' _ He). pose proof (Hfit' _ Hv'). apply enc_inj in Ev; [|lia|lia]. rewrite <- Ev in Hne. auto.
    + rewrite Elast, sub_enc in Hr. pose proof (Hfit' _ He). pose proof (Hfit' _ Rlast).
      apply rc_int in Hr; auto; lia.
  - intros (vs & is & -> & -> & Lvs & Lis & Hj & Hb).
    assert (Hin : forall v, In v vs -> In v lane).
    { intros v Hv. apply (In_nth _ _ 0) in Hv as (j & Hj' & <-). destruct (Hj j ltac:(lia)) as (A & ->). apply nth_In; auto. }
    exists (map (enc p) vs ++ map Z.of_nat is).
    assert (E1 : firstn k (map (enc p) vs ++ map Z.of_nat is) = map (enc p) vs).
    { rewrite firstn_app, map_length, Lvs, Nat.sub_diag, firstn_all2 by (rewrite map_length; lia). cbn. apply app_nil_r. }
    assert (E2 : skipn k (map (enc p) vs ++ map Z.of_nat is) = map Z.of_nat is).
    { rewrite skipn_app, map_length, Lvs, Nat.sub_diag, skipn_all2 by (rewrite map_length; lia). reflexivity. }
    assert (Ri : forall i, In i is -> (i < length lane)%nat).
    { intros i Hi. apply (In_nth _ _ 0%nat) in Hi as (j & Hj' & <-). apply Hj. lia. }
    split.
    { apply accepts_hintn. rewrite app_length, !map_length. split; [lia|]. apply Forall_app. split.
      - apply Forall_map, Forall_forall. intros. apply enc_range. lia.
      - apply Forall_map, Forall_forall. intros i Hi. specialize (Ri i Hi). unfold zn in Hd. lia. }
    rewrite E1, E2.
    assert (Rv : Forall (fun v => 0 <= v < p) (map (enc p) vs)).
    { apply Forall_map, Forall_forall. intros. apply enc_range. lia. }
    assert (Elast : nth (k - 1) (map (enc p) vs) 0 = enc p (nth (k - 1) vs 0)).
    { rewrite (nth_indep _ 0 (enc p 0)) by (rewrite map_length; lia). apply map_nth. }
    apply accepts_bind. exists tt. split.
    { apply accepts_forM. apply Forall_map, Forall_forall. intros e He.
      apply topk_bound_acc; auto; [apply enc_range; lia|rewrite Elast; apply enc_range; lia|].
      destruct (in_dec Z.eq_dec (enc p e) (map (enc p) vs)) as [Hi|Hi].
      - left. split; auto. rewrite <- (enc_id p 0) by lia. apply rc_slack; auto; lia.
      - right. split; auto. rewrite Elast, sub_enc.
        assert (Hne : ~ In e vs) by (intros X; apply Hi; apply in_map; auto).
        specialize (Hb e He Hne). apply rc_slack; auto. lia. }
    apply accepts_bind. exists tt. split.
    { apply accepts_forM. apply Forall_map, Forall_forall. intros v Hv. apply accepts_assert_zero.
      apply member_prod_zero; auto; [apply enc_range; lia|]. apply in_map. auto. }
    apply accepts_bind. exists tt. split.
    { apply accepts_forM. apply Forall_forall. intros [a b] Hab. cbn [fst snd].
      pose proof (in_combine_l _ _ _ _ Hab) as Ha. pose proof (in_combine_r _ _ _ _ Hab) as Hb'.
      apply in_map_iff in Ha as (x & <- & Hx).
      assert (Hb2 : In b (map (enc p) vs)) by (destruct (map (enc p) vs); [destruct Hb'|right; exact Hb']).
      apply in_map_iff in Hb2 as (y & <- & Hy).
      change (const p (pow2 nb)) with (enc p (pow2 nb)). rewrite sub_enc, add_enc.
      pose proof (Hfit' _ (Hin _ Hx)). pose proof (Hfit' _ (Hin _ Hy)). apply rc_slack; auto; lia. }
    apply accepts_bind. exists tt. split; [|apply accepts_ret; auto].
    apply accepts_forM. rewrite (nth_combine_Forall _ _ _ _ _ 0 0) by (rewrite !map_length; lia).
    intros j Hj'. rewrite map_length, Lis in Hj'. cbn [fst snd]. destruct (Hj j Hj') as (A & B).
    assert (N1 : nth j (map Z.of_nat is) 0 = Z.of_nat (nth j is 0%nat)).
    { change 0 with (Z.of_nat 0) at 1. apply map_nth. }
    assert (N2 : nth j (map (enc p) vs) 0 = enc p (nth j vs 0)).
    { rewrite (nth_indep _ 0 (enc p 0)) by (rewrite map_length; lia). apply map_nth. }
    rewrite N1, N2.
    apply topk_index_acc.
    + unfold zn in Hd. lia.
    + apply enc_range. lia.
    + auto.
    + rewrite map_length. auto.
    + rewrite map_length. auto.
    + rewrite map_length. auto.
    + rewrite map_length. split; [unfold zn; lia|]. rewrite B, Nat2Z.id.
      rewrite <- (map_nth (enc p)). apply nth_indep. rewrite map_length. auto.
Qed.
End L.
