From Coq Require Import ZArith List Bool Znumtheory Lia.
From Verif Require Import Base.Field Model.LogUp Model.Builder Model.Gadgets Model.Trace
  Proofs.LogUp Proofs.Builder Proofs.RangeCheck.
Import ListNotations.
Local Open Scope Z_scope.

Lemma trace_accepts A p (T : tableid -> list Z -> Prop) (m : prog A) hs a r qs :
  Forall (Forall (fun v => 0 <= v < p)) hs ->
  trace m hs = Some (a, r, qs) -> (forall t row, In (t, row) qs -> T t row) ->
  accepts p T m a.
Proof.
  revert hs qs. induction m as [b|cd|h ins n k IH|x y k IH|t row k IH]; cbn; intros hs qs Hf E HT.
  - congruence.
  - discriminate.
  - destruct hs as [|outs hs]; [discriminate|].
    destruct (Nat.eqb_spec (length outs) n); [|discriminate].
    inversion Hf; subst. exists outs. repeat split; auto. eapply IH; eauto.
  - destruct (Z.eqb_spec x y); [|discriminate]. split; auto. eapply IH; eauto.
  - destruct (trace k hs) as [[[a' r'] qs']|] eqn:Ek; [|discriminate].
    injection E as <- <- <-. split.
    + apply HT. now left.
    + eapply IH; eauto. intros; apply HT. now right.
Qed.

Lemma accepts_trace A p (T : tableid -> list Z -> Prop) (m : prog A) a :
  accepts p T m a -> exists hs qs, Forall (Forall (fun v => 0 <= v < p)) hs /\
    trace m hs = Some (a, [], qs) /\ (forall t row, In (t, row) qs -> T t row).
Proof.
  induction m as [b|cd|h ins n k IH|x y k IH|t row k IH]; cbn; intros H.
  - subst. exists [], []. repeat split; auto. intros ? ? [].
  - contradiction.
  - destruct H as (outs & Hl & Hf & H). apply IH in H as (hs & qs & H1 & H2 & H3).
    exists (outs :: hs), qs. split; [constructor; auto|]. split; [|auto].
    cbn. subst n. rewrite Nat.eqb_refl. auto.
  - destruct H as (-> & H). apply IH in H as (hs & qs & H1 & H2 & H3).
    exists hs, qs. rewrite Z.eqb_refl. auto.
  - destruct H as (HT & H). apply IH in H as (hs & qs & H1 & H2 & H3).
    exists hs, ((t, row) :: qs). rewrite H2. repeat split; auto.
    intros t' row' [E|E]; [congruence|auto].
Qed.

(** The program only queries one-column rows of the range table. *)
Fixpoint range_only {A} (m : prog A) : Prop :=
  match m with
  | Ret _ | Fail _ => True
  | Hint _ _ _ k => forall outs, range_only (k outs)
  | AssertEq _ _ k => range_only k
  | Lookup t row k => t = TRange /\ (exists v, row = [v]) /\ range_only k
  end.

Lemma range_only_bind A B (m : prog A) (f : A -> prog B) :
  range_only m -> (forall a, range_only (f a)) -> range_only (bind m f).
Proof.
  intros Hm Hf. induction m as [b|cd|h ins n k IH|x y k IH|t row k IH]; cbn in *; auto.
  - intuition.
Qed.

Lemma range_only_forM A (f : A -> prog unit) l : (forall a, range_only (f a)) -> range_only (forM f l).
Proof. intros Hf. induction l; cbn; auto. apply range_only_bind; auto. Qed.

Lemma range_only_mapM A B (f : A -> prog B) l : (forall a, range_only (f a)) -> range_only (mapM f l).
Proof.
  intros Hf. induction l; cbn; auto. apply range_only_bind; auto.
  intros. apply range_only_bind; cbn; auto.
Qed.

Lemma range_only_trace A (m : prog A) hs a r qs :
  range_only m -> trace m hs = Some (a, r, qs) ->
  forall t row, In (t, row) qs -> t = TRange /\ exists v, row = [v].
Proof.
  revert hs a r qs. induction m as [b|cd|h ins n k IH|x y k IH|t row k IH]; cbn; intros hs a r qs Hr E.
  - injection E as <- <- <-. intros ? ? [].
  - discriminate.
  - destruct hs; [discriminate|]. destruct (_ =? _)%nat; [|discriminate]. eapply IH; eauto.
  - destruct (x =? y); [|discriminate]. eapply IH; eauto.
  - destruct (trace k hs) as [[[a' r'] qs']|] eqn:Ek; [|discriminate].
    injection E as <- <- <-. intros t' row' [E|E].
    + injection E as <- <-. intuition.
    + eapply IH; eauto. intuition.
Qed.

Lemma range_queries_in qs v : In v (range_queries qs) <-> In (TRange, [v]) qs.
Proof.
  induction qs as [|[t row] qs IH]; [reflexivity|].
  cbn [range_queries]. destruct t as [|n].
  - destruct row as [|w [|? ?]].
    + rewrite IH. cbn. intuition congruence.
    + cbn [In]. rewrite IH. intuition congruence.
    + rewrite IH. cbn. intuition congruence.
  - rewrite IH. cbn. intuition congruence.
Qed.

Section Bridge.
Variable p : Z.
Hypothesis Hp : prime p.

Lemma f_of_nat_fp m : f_of_nat (K := Fp_field p Hp) m = to_fp p (Z.of_nat m).
Proof.
  induction m as [|m IH]; [reflexivity|]. cbn [f_of_nat]. rewrite IH.
  change (fadd (f1 : Fp_field p Hp) (to_fp p (Z.of_nat m))) with (fp_add p (to_fp p 1) (to_fp p (Z.of_nat m))).
  apply fval_inj. unfold fp_add. rewrite !fval_to_fp. rewrite <- Zplus_mod. f_equal. lia.
Qed.

Lemma f_of_nat_nz m : (0 < m)%nat -> Z.of_nat m < p -> f_of_nat (K := Fp_field p Hp) m <> f0.
Proof.
  intros H1 H2 E. rewrite f_of_nat_fp in E. change (f0 : Fp_field p Hp) with (to_fp p 0) in E.
  apply to_fp_eq in E. rewrite !Z.mod_small in E; lia.
Qed.

Lemma pow2_nat c : Z.of_nat (2 ^ c) = pow2 c.
Proof. unfold pow2, zn. rewrite Nat2Z.inj_pow. reflexivity. Qed.

Lemma range_table_in c v : pow2 c <= p -> 0 <= v < p ->
  In (to_fp p v : Fp_field p Hp) (range_table p Hp c) <-> v < pow2 c.
Proof.
  intros Hc Hv. unfold range_table. rewrite in_map_iff. split.
  - intros (i & E & Hi). apply in_seq in Hi. apply to_fp_eq in E.
    pose proof (pow2_nat c). rewrite !Z.mod_small in E by lia. lia.
  - intros H. exists (Z.to_nat v). rewrite Z2Nat.id by lia. split; [reflexivity|].
    apply in_seq. pose proof (pow2_nat c). lia.
Qed.

(** trace evaluates only field values provided the lookup arguments are *)
Fixpoint field_rows {A} (m : prog A) : Prop :=
  match m with
  | Ret _ | Fail _ => True
  | Hint _ _ n k => forall outs, length outs = n -> Forall (fun v => 0 <= v < p) outs -> field_rows (k outs)
  | AssertEq _ _ k => field_rows k
  | Lookup _ row k => Forall (fun v => 0 <= v < p) row /\ field_rows k
  end.

Lemma field_rows_trace A (m : prog A) hs a r qs :
  field_rows m -> Forall (Forall (fun v => 0 <= v < p)) hs -> trace m hs = Some (a, r, qs) ->
  forall t row, In (t, row) qs -> Forall (fun v => 0 <= v < p) row.
Proof.
  revert hs a r qs. induction m as [b|cd|h ins n k IH|x y k IH|t row k IH]; cbn; intros hs a r qs Hr Hf E.
  - injection E as <- <- <-. intros ? ? [].
  - discriminate.
  - destruct hs as [|outs hs]; [discriminate|].
    destruct (Nat.eqb_spec (length outs) n); [|discriminate]. inversion Hf; subst. eapply IH; eauto.
  - destruct (x =? y); [|discriminate]. eapply IH; eauto.
  - destruct (trace k hs) as [[[a' r'] qs']|] eqn:Ek; [|discriminate].
    injection E as <- <- <-. intros t' row' [E|E].
    + injection E as <- <-. intuition.
    + eapply IH; eauto. intuition.
Qed.

(** End to end: hint outputs and multiplicities fixed before the challenge; if
    the result [a] is not acceptable in the idealised sense, fewer than
    (table size + number of queries) challenges make the circuit accept it. *)
Theorem bridge_sound A c F (m : prog A) a hs counts alphas :
  range_only m -> field_rows m -> Forall (Forall (fun v => 0 <= v < p)) hs ->
  length counts = (2 ^ c)%nat -> pow2 c <= p ->
  (forall r qs, trace m hs = Some (a, r, qs) -> Z.of_nat (length qs) < p) ->
  ~ accepts p (table_rows c F) m a ->
  NoDup alphas ->
  (forall al, In al alphas -> circuit_accepts p Hp c m a hs counts al) ->
  (length alphas < 2 ^ c + match trace m hs with Some (_, _, qs) => length qs | None => 1 end)%nat.
Proof.
  intros Hro Hfr Hf Hcl Hc Hq Hn ND Hacc.
  destruct alphas as [|al0 alphas'] eqn:Eal; [cbn; pose proof (Nat.pow_nonzero 2 c); lia|].
  rewrite <- Eal in *.
  destruct (Hacc al0) as (qs & Etr & _). { rewrite Eal. now left. }
  rewrite Etr.
  assert (Hin : exists v, In (TRange, [v]) qs /\ 0 <= v < p /\ ~ v < pow2 c).
  { destruct (Forall_dec (fun q => match q with (TRange, [v]) => v < pow2 c | _ => False end)) with (l := qs)
      as [Hall|Hex].
    { intros [t row]. destruct t; [|now right]. destruct row as [|v [|? ?]]; try now right.
      destruct (Z_lt_dec v (pow2 c)); [left|right]; auto. }
    - exfalso. apply Hn. eapply trace_accepts; eauto.
      intros t row Hi. rewrite Forall_forall in Hall. pose proof (Hall _ Hi) as H0. cbn in H0.
      pose proof (field_rows_trace _ _ _ _ _ _ Hfr Hf Etr _ _ Hi) as Hrow.
      destruct t; [|contradiction]. destruct row as [|v [|? ?]]; try contradiction.
      cbn. inversion Hrow; subst. lia.
    - assert (Hex' : Exists (fun q => ~ match q with (TRange, [v]) => v < pow2 c | _ => False end) qs).
      { first [exact Hex | apply neg_Forall_Exists_neg; [|exact Hex]]. intros [t row].
        destruct t; [|now right]. destruct row as [|v [|? ?]]; try now right.
        destruct (Z_lt_dec v (pow2 c)); [left|right]; auto. }
      apply Exists_exists in Hex' as ([t row] & Hi & Hbad).
      destruct (range_only_trace _ _ _ _ _ _ Hro Etr _ _ Hi) as (-> & v & ->).
      pose proof (field_rows_trace _ _ _ _ _ _ Hfr Hf Etr _ _ Hi) as Hrow. inversion Hrow; subst.
      exists v. auto. }
  destruct Hin as (v & Hi & Hv & Hbad).
  assert (Hlen : (length (range_queries qs) <= length qs)%nat).
  { clear. induction qs as [|[[|n] row] qs IH]; cbn; try lia. destruct row as [|? [|? ?]]; cbn; lia. }
  assert (Hb : (length alphas < length (range_table p Hp c) +
                length (map (to_fp p) (range_queries qs) : list (Fp_field p Hp)))%nat).
  { apply (range_sound (Fp_field p Hp)) with (counts := counts) (q := to_fp p v).
    - rewrite Hcl. unfold range_table. now rewrite map_length, seq_length.
    - apply in_map. apply range_queries_in. exact Hi.
    - rewrite range_table_in by auto. exact Hbad.
    - intros mm Hm. rewrite map_length in Hm. apply f_of_nat_nz; [lia|].
      pose proof (Hq _ _ Etr). lia.
    - exact ND.
    - intros al Hal. destruct (Hacc al Hal) as (qs2 & E2 & H2). rewrite Etr in E2.
      injection E2 as <-. exact H2. }
  unfold range_table in Hb. rewrite !map_length, seq_length in Hb. lia.
Qed.

(** The gadgets are in the scope of the bridge.  [outputs_ok P m]: every result
    of [m] on field-element hints satisfies [P] (assertions ignored). *)
Fixpoint outputs_ok {A} (P : A -> Prop) (m : prog A) : Prop :=
  match m with
  | Ret a => P a
  | Fail _ => True
  | Hint _ _ n k => forall outs, length outs = n -> Forall (fun v => 0 <= v < p) outs -> outputs_ok P (k outs)
  | AssertEq _ _ k => outputs_ok P k
  | Lookup _ _ k => outputs_ok P k
  end.

Lemma field_rows_bind A B (P : A -> Prop) (m : prog A) (f : A -> prog B) :
  field_rows m -> outputs_ok P m -> (forall a, P a -> field_rows (f a)) -> field_rows (bind m f).
Proof.
  intros Hm HP Hf. induction m as [b|cd|h ins n k IH|x y k IH|t row k IH]; cbn in *; auto.
  intuition.
Qed.

Lemma outputs_ok_bind A B (P : A -> Prop) (Q : B -> Prop) (m : prog A) (f : A -> prog B) :
  outputs_ok P m -> (forall a, P a -> outputs_ok Q (f a)) -> outputs_ok Q (bind m f).
Proof.
  intros HP Hf. induction m as [b|cd|h ins n k IH|x y k IH|t row k IH]; cbn in *; auto.
Qed.

Lemma outputs_true A (m : prog A) : outputs_ok (fun _ => True) m.
Proof. induction m as [b|cd|h ins n k IH|x y k IH|t row k IH]; cbn in *; auto. Qed.

Lemma hd_ok outs : length outs = 1%nat -> Forall (fun v => 0 <= v < p) outs -> 0 <= hd 0 outs < p.
Proof. destruct outs; [discriminate|]. intros _ H. inversion H; auto. Qed.

Definition inF (v : Z) : Prop := 0 <= v < p.

Lemma p0 : 0 < p. Proof. destruct Hp; lia. Qed.
Lemma inF_mod x : inF (x mod p). Proof. apply Z.mod_pos_bound. apply p0. Qed.

Lemma ro_range_check c a n : range_only (range_check p c a n).
Proof.
  unfold range_check. destruct (n =? 0)%nat; [exact I|]. destruct (128 <? n)%nat eqn:E; [exact I|].
  unfold rangeproof. rewrite E. destruct (n <=? c)%nat.
  - unfold rangeproof_onechunk. destruct (c <? n)%nat; cbn; eauto.
  - destruct (_ && _); [exact I|].
    cbn. intros outs. apply range_only_forM. intros w. cbn. eauto.
Qed.

Lemma fr_range_check c a n : inF a -> field_rows (range_check p c a n).
Proof.
  intros Ha.
  assert (Hs : inF (shifted_value p c a n)).
  { unfold shifted_value. destruct (_ =? _)%nat; auto. apply inF_mod. }
  unfold range_check. destruct (n =? 0)%nat; [exact I|]. destruct (128 <? n)%nat eqn:E; [exact I|].
  unfold rangeproof. rewrite E. destruct (n <=? c)%nat.
  - unfold rangeproof_onechunk. destruct (c <? n)%nat; cbn; auto.
  - destruct (_ && _); [exact I|].
    cbn [bind hintn field_rows assert_eq]. intros outs _ Ho.
    assert (G : forall l, Forall inF l -> field_rows (forM (fun w => lookup TRange [w]) l)).
    { induction 1; cbn; auto. }
    apply G. apply Forall_forall. intros x Hx. rewrite Forall_forall in Ho. apply Ho.
    rewrite <- (firstn_skipn ((n + range_shift c n) / c) outs). apply in_or_app. now left.
Qed.

Lemma fr_seq A (m : prog unit) (k : unit -> prog A) :
  field_rows m -> field_rows (k tt) -> field_rows (bind m k).
Proof.
  intros H1 H2. apply (field_rows_bind _ _ (fun _ => True)); auto.
  - apply outputs_true.
  - intros []; auto.
Qed.

Lemma ok_seq A (P : A -> Prop) (m : prog unit) (k : unit -> prog A) :
  outputs_ok P (k tt) -> outputs_ok P (bind m k).
Proof.
  intros H. apply (outputs_ok_bind _ _ (fun _ => True)); [apply outputs_true|]. intros []; auto.
Qed.

(** A program with field-element results that is in the scope of [bridge_sound]. *)
Definition scoped (m : prog Z) : Prop := range_only m /\ field_rows m /\ outputs_ok inF m.

Lemma scope_relu c s off x : inF x -> scoped (constrained_relu p c s off x).
Proof.
  intros Hx. unfold scoped, constrained_relu. cbn [bind unconstrained_greater_eq hint1 assert_bool].
  repeat split; cbn [range_only field_rows outputs_ok].
  - intros outs. apply range_only_bind; [apply ro_range_check|]. intros; exact I.
  - intros outs Hl Ho. apply fr_seq; [apply fr_range_check, inF_mod|exact I].
  - intros outs Hl Ho. apply ok_seq. cbn. apply inF_mod.
Qed.

Lemma scope_div c x d ds k s sh b : scoped (div_pow2_inner p c x d ds k s sh b).
Proof.
  unfold scoped, div_pow2_inner. cbn [bind unconstrained_int_div unconstrained_mod hint1 assert_eq].
  repeat split; cbn [range_only field_rows outputs_ok].
  - intros outs outs'. apply range_only_bind; [apply ro_range_check|]. intros _.
    apply range_only_bind; [|intros; exact I]. destruct b; [apply ro_range_check|exact I].
  - intros outs Hl Ho outs' Hl' Ho'. apply fr_seq; [apply fr_range_check, hd_ok; auto|].
    apply fr_seq; [|exact I]. destruct b; [apply fr_range_check, hd_ok; auto|exact I].
  - intros outs Hl Ho outs' Hl' Ho'. apply ok_seq. apply ok_seq. cbn. apply inF_mod.
Qed.

Lemma scope_bind (m : prog Z) (f : Z -> prog Z) :
  scoped m -> (forall a, inF a -> scoped (f a)) -> (forall a, range_only (f a)) -> scoped (bind m f).
Proof.
  intros (H1 & H2 & H3) Hf Hr. repeat split.
  - apply range_only_bind; auto.
  - apply (field_rows_bind _ _ inF); auto. intros a Ha. apply Hf; auto.
  - apply (outputs_ok_bind _ _ inF); auto. intros a Ha. apply Hf; auto.
Qed.

Lemma ro_relu c s off x : range_only (constrained_relu p c s off x).
Proof.
  unfold constrained_relu. cbn [bind unconstrained_greater_eq hint1 assert_bool range_only].
  intros outs. apply range_only_bind; [apply ro_range_check|]. intros; exact I.
Qed.

Lemma scope_rescale c ctx x r : scoped (rescale p c ctx x r).
Proof.
  unfold rescale. apply scope_bind; [apply scope_div| |].
  - intros a Ha. destruct r; [|repeat split; auto; apply Ha].
    unfold shift_ctx. destruct (64 <=? rc_s ctx)%nat; [repeat split|]. cbn [bind]. apply scope_relu; auto.
  - intros a. destruct r; [|exact I].
    unfold shift_ctx. destruct (64 <=? rc_s ctx)%nat; [exact I|]. cbn [bind]. apply ro_relu.
Qed.

Lemma fr_mapM (f : Z -> prog Z) l : (forall x, scoped (f x)) -> field_rows (mapM f l).
Proof.
  intros Hf. induction l as [|a l IH]; cbn; auto.
  apply (field_rows_bind _ _ inF); [apply Hf|apply Hf|]. intros b _.
  apply (field_rows_bind _ _ (fun _ => True)); [exact IH|apply outputs_true|]. intros; exact I.
Qed.

Lemma scope_rescale_array c xs k s r :
  range_only (rescale_array p c xs k s r) /\ field_rows (rescale_array p c xs k s r).
Proof.
  unfold rescale_array, rescaling_context.
  destruct (32 <=? k)%nat; [split; exact I|]. destruct (64 <=? s)%nat; [split; exact I|]. cbn [bind].
  split; [apply range_only_mapM; intros; apply scope_rescale | apply fr_mapM; intros; apply scope_rescale].
Qed.

End Bridge.
