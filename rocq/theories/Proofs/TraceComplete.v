From Coq Require Import ZArith List Bool Znumtheory Lia.
From Verif Require Import Base.Field Model.LogUp Model.LogUpHints Model.Builder Model.Gadgets Model.Trace
  Proofs.LogUp Proofs.LogUpHints Proofs.Builder Proofs.RangeCheck Proofs.Trace.
Import ListNotations.
Local Open Scope Z_scope.

Lemma run_trace A H Tb (m : prog A) a : run H Tb m = Some a ->
  exists hs qs, trace m hs = Some (a, [], qs) /\ (forall t row, In (t, row) qs -> Tb t row = true).
Proof.
  induction m as [b|cd|h ins n k IH|x y k IH|t row k IH]; cbn; intros E.
  - injection E as <-. exists [], []. split; [reflexivity|]. intros ? ? [].
  - discriminate.
  - destruct (H h ins n) as [outs|]; [|discriminate].
    destruct (Nat.eqb_spec (length outs) n) as [El|]; [|discriminate].
    apply IH in E as (hs & qs & H1 & H2). exists (outs :: hs), qs.
    rewrite El, Nat.eqb_refl. auto.
  - destruct (x =? y); [|discriminate]. apply IH in E as (hs & qs & H1 & H2). exists hs, qs. auto.
  - destruct (Tb t row) eqn:Et; [|discriminate]. apply IH in E as (hs & qs & H1 & H2).
    exists hs, ((t, row) :: qs). rewrite H1. split; auto.
    intros t' row' [E|E]; [congruence|auto].
Qed.

Section C.
Variable p : Z.
Hypothesis Hp : prime p.

Lemma range_table_nodup c : pow2 c <= p -> NoDup (range_table p Hp c).
Proof.
  intros Hc. unfold range_table. pose proof (pow2_nat c) as E.
  assert (G : forall l, NoDup l -> (forall i, In i l -> (i < 2 ^ c)%nat) ->
     NoDup (map (fun i => to_fp p (Z.of_nat i)) l)).
  { induction l as [|a l IH]; intros ND HB; cbn; [constructor|].
    inversion ND; subst. constructor.
    - intros Hin. apply in_map_iff in Hin as (b & Hb & Hbl).
      assert (a < 2 ^ c)%nat by (apply HB; now left).
      assert (b < 2 ^ c)%nat by (apply HB; now right).
      apply to_fp_eq in Hb. rewrite !Z.mod_small in Hb by lia.
      apply Nat2Z.inj in Hb. subst. contradiction.
    - apply IH; auto. intros; apply HB; now right. }
  apply G; [apply seq_NoDup|]. intros i Hi. apply in_seq in Hi. lia.
Qed.

Lemma count_occ_fp (qs : list Z) t : Forall (fun v => 0 <= v < p) qs -> 0 <= t < p ->
  count_occ (@feq_dec (Fp_field p Hp)) (map (to_fp p) qs) (to_fp p t) = count_occ Z.eq_dec qs t.
Proof.
  intros Hq Ht. induction Hq as [|q qs Hx Hq IH]; cbn [map count_occ]; auto.
  rewrite IH. destruct (@feq_dec (Fp_field p Hp) (to_fp p q) (to_fp p t)) as [E|E], (Z.eq_dec q t) as [E'|E']; auto.
  - apply to_fp_eq in E. rewrite !Z.mod_small in E by lia. contradiction.
  - subst. contradiction.
Qed.

(** Honest witness generation, with the code's own multiplicity hint, is
    accepted for every challenge. *)
Theorem bridge_complete A H c F (m : prog A) a :
  range_only m -> pow2 c <= p -> (c <= 64)%nat ->
  run H (table_rowsb c F) m = Some a ->
  exists hs qs, trace m hs = Some (a, [], qs) /\
    (Z.of_nat (length qs) < 2 ^ 32 ->
     exists counts, query_count_hint (range_queries qs) (2 ^ c) = Some counts /\
     forall alpha, circuit_accepts p Hp c m a hs (map (to_fp p) counts) alpha).
Proof.
  intros Hro Hc Hc64 Hr. destruct (run_trace _ _ _ _ _ Hr) as (hs & qs & Htr & HT).
  exists hs, qs. split; [auto|]. intros Hlen.
  assert (Hq : Forall (fun v => 0 <= v < pow2 c) (range_queries qs)).
  { apply Forall_forall. intros v Hv. apply range_queries_in in Hv. apply HT in Hv. cbn in Hv.
    apply andb_true_iff in Hv as (H1 & H2). apply Z.leb_le in H1. apply Z.ltb_lt in H2. lia. }
  assert (Hl2 : (length (range_queries qs) <= length qs)%nat).
  { clear. induction qs as [|[[|n] row] qs IH]; cbn; try lia. destruct row as [|? [|? ?]]; cbn; lia. }
  pose proof (pow2_nat c) as Ep.
  eexists. split.
  { apply query_count_hint_correct; [now rewrite Ep| |lia].
    rewrite Ep. change (2 ^ 64) with (pow2 64). apply pow2_le. auto. }
  intros alpha. exists qs. split; [auto|].
  replace (map (to_fp p) (counts_of (map Z.of_nat (seq 0 (2 ^ c))) (range_queries qs)))
    with (true_counts (Fp_field p Hp) (range_table p Hp c) (map (to_fp p) (range_queries qs))).
  - apply range_complete.
    + apply range_table_nodup; auto.
    + intros q Hin. apply in_map_iff in Hin as (v & <- & Hv).
      rewrite Forall_forall in Hq. specialize (Hq v Hv). apply range_table_in; lia.
  - unfold true_counts, counts_of, range_table. rewrite !map_map. apply map_ext_in.
    intros i Hi. apply in_seq in Hi. rewrite f_of_nat_fp. f_equal. f_equal.
    apply count_occ_fp; [|lia]. eapply Forall_impl; [|exact Hq]. cbn. intros; lia.
Qed.
End C.
