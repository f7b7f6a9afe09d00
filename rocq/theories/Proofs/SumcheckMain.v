(** The statements about the generic sumcheck in their final form. *)
From Coq Require Import List Arith Bool Lia Ring Field.
From Verif Require Import Base.Field Base.Array Base.Poly Spec.Multilinear Spec.Sumcheck Model.Polynomials
  Model.Sumcheck Proofs.Multilinear Proofs.Polynomials Proofs.Sumcheck.
Import ListNotations.

Section Main.
Variable K : field.
Add Field Kf : (fth K).
Local Open Scope fld_scope.

Lemma fold_max_ge l a : (a <= fold_left Nat.max l a)%nat.
Proof. revert a. induction l as [|b l IH]; intros a; cbn [fold_left]; auto. specialize (IH (Nat.max a b)). lia. Qed.
Lemma fold_max_in l a x : In x l -> (x <= fold_left Nat.max l a)%nat.
Proof.
  revert a. induction l as [|b l IH]; intros a H; [destruct H|]. destruct H as [->|H]; cbn [fold_left]; auto.
  pose proof (fold_max_ge l (Nat.max a x)). lia.
Qed.
Lemma fold_max_le l a n : (a <= n)%nat -> (forall x, In x l -> (x <= n)%nat) -> (fold_left Nat.max l a <= n)%nat.
Proof.
  revert a. induction l as [|b l IH]; intros a Ha H; cbn [fold_left]; auto.
  apply IH; [|intros; apply H; now right]. specialize (H b (or_introl eq_refl)). lia.
Qed.

Lemma well_formed_num_vars n (p : sop K) : well_formed n p -> num_vars p = n.
Proof.
  intros (H & f & g & Hin & L). apply Nat.le_antisymm.
  - apply fold_max_le; [lia|]. intros x Hx. apply in_map_iff in Hx as ([f' g'] & <- & Hi).
    destruct (H f' g' Hi) as (m & Hm & L1 & L2). unfold num_vars1. cbn [fst]. now rewrite L1, log2_up_pow.
  - apply fold_max_in. apply in_map_iff. exists (f, g). split; auto. unfold num_vars1. cbn [fst]. now rewrite L, log2_up_pow.
Qed.

Lemma sum_eq n (p : sop K) : well_formed n p -> sum p = cube_sum n (sop_poly p).
Proof.
  intros (H & _). unfold sum, sop_poly. rewrite cube_sum_fsum. rewrite fold_fadd.
  transitivity (fsum (map (fun fg : list K * list K => dot (fst fg) (snd fg)) p)).
  - rewrite fadd_0_l. clear H. induction p as [|[f g] p IH]; cbn [flat_map map fsum]; auto.
    rewrite fsum_app, IH, dot_fsum. reflexivity.
  - apply fsum_ext. intros [f g] Hi. destruct (H f g Hi) as (m & Hm & L1 & L2). symmetry. now apply cube_pair with m.
Qed.

Lemma eval_at n (p : sop K) x : (forall f g, In (f, g) p -> exists m, (m <= n)%nat /\ length f = (2 ^ m)%nat /\ length g = (2 ^ m)%nat) ->
  length x = n -> evaluate p x = Some (sop_poly p x).
Proof.
  intros H Hx. unfold evaluate. rewrite (omap_total _ (fun fg => pair_poly fg x)).
  - cbn [obind]. rewrite fold_fadd, fadd_0_l. reflexivity.
  - intros [f g] Hi. destruct (H f g Hi) as (m & Hm & L1 & L2). unfold num_vars1. cbn [fst snd].
    rewrite L1, log2_up_pow, Hx. replace (m <=? n) with true by (symmetry; apply Nat.leb_le; lia). cbn [guard obind].
    assert (Ls : length (skipn (n - m) x) = m) by (rewrite skipn_length; lia).
    rewrite (eval_reverse_ok K f (table f)) by (rewrite Ls, <- L1; apply arr_table).
    rewrite (eval_reverse_ok K g (table g)) by (rewrite Ls, <- L2; apply arr_table). cbn [obind].
    rewrite ith_eq_ok. replace (0 <? 2 ^ length (firstn (n - m) x)) with true
      by (symmetry; apply Nat.ltb_lt; pose proof (Multilinear.pow2_nz (length (firstn (n - m) x))); lia).
    cbn [obind]. unfold pair_poly. cbn [fst snd]. rewrite L1, Nat.log2_pow2, Hx by lia.
    replace (fprod (map (fun r => 1 - r) (firstn (n - m) x))) with (eq_point (firstn (n - m) x) 0); auto.
    generalize (firstn (n - m) x). intros l. induction l as [|a l IH]; [reflexivity|].
    cbn [map fprod]. rewrite <- IH. change O with (2 * O)%nat at 1. now rewrite eq_point_even.
Qed.

Lemma rows_init n (p : sop K) : (forall f g, In (f, g) p -> exists m, (m <= n)%nat /\ length f = (2 ^ m)%nat /\ length g = (2 ^ m)%nat) ->
  rows K n [] p (repeat 1 (length p)) (map (fun fg => dot (fst fg) (snd fg)) p) p.
Proof.
  induction p as [|[f g] p IH]; intros H; cbn [length repeat map]; constructor.
  - destruct (H f g (or_introl eq_refl)) as (m & Hm & L1 & L2). exists m. cbn [fst snd app]. repeat (split; [auto|]).
    intros x _. ring.
  - apply IH. intros f' g' Hi. apply H. now right.
Qed.

Theorem complete T (append : list K -> T -> T) (sample : T -> K * T) n (p : sop K) t :
  (1 + 1 : K) <> 0 -> (1 <= n)%nat -> well_formed n p ->
  exists pf t', prove append sample p t = Some (pf, t') /\ length (point pf) = n /\
    verify append sample (cube_sum n (sop_poly p)) pf n t
      = Some (true, {| sub_point := point pf; expected_evaluation := sop_poly p (point pf) |}, t') /\
    extract_sum pf = Some (cube_sum n (sop_poly p)).
Proof.
  intros H2 Hn Hwf. unfold prove. rewrite (well_formed_num_vars n p Hwf). destruct Hwf as (Hwf & Hex).
  assert (He : entry K n p (prover_init p) None []).
  { split; [apply well_formed_num_vars; now split|]. split; [reflexivity|]. split; [reflexivity|]. split; [reflexivity|].
    apply rows_init, Hwf. }
  set (hm := honest K T append sample n p n [] t).
  assert (Lh : length hm = n) by apply honest_length.
  destruct (prove_loop_ok K T append sample n p n (prover_init p) None [] [] t ltac:(cbn; lia) He)
    as (st & ch & E & He').
  rewrite E. cbn [obind app] in *. fold hm in He', E |- *.
  assert (Lr := vrun_length K T append sample hm t). fold hm in Lr. rewrite Lh in Lr.
  assert (Ep : match ch with Some c => challenges st ++ [c] | None => challenges st end = fst (vrun K T append sample hm t)).
  { destruct He' as (_ & _ & He'). destruct ch as [c|].
    - destruct He' as (r0 & -> & -> & _). reflexivity.
    - destruct He' as (E0 & _). rewrite E0 in Lr. cbn in Lr. lia. }
  rewrite Ep. do 2 eexists. split; [reflexivity|]. cbn [point]. split; [exact Lr|]. split.
  - rewrite verify_eq by (cbn [proofs]; lia). cbn [proofs]. cbn zeta.
    rewrite (firstn_all2 (n := n) hm) by lia.
    assert (C := honest_check K T append sample n p n H2 [] t eq_refl). fold hm in C. cbn [app] in C.
    rewrite (cube_sum_ext K n _ (sop_poly p)) in C by auto. rewrite C. reflexivity.
  - unfold extract_sum. cbn [proofs]. destruct n as [|k]; [lia|]. unfold hm. cbn [honest].
    destruct (sample (append (msg K (S k) p []) t)) as [c t'] eqn:Es. cbn [aget nth_error obind]. unfold msg at 1 2.
    cbn [nth_error obind]. f_equal. unfold R, round_poly. cbn [length]. replace (S k - 1 - 0)%nat with k by lia. reflexivity.
Qed.

Theorem sound T (append : list K -> T -> T) (sample : T -> K * T) n (P : list K -> K) s pf t sc t' :
  (1 + 1 : K) <> 0 -> individual_degree 2 n P ->
  verify append sample s pf n t = Some (true, sc, t') ->
  expected_evaluation sc = P (sub_point sc) ->
  s <> cube_sum n P ->
  exists i e0 e1 e2 rest q,
    (i < n)%nat /\ length (sub_point sc) = n /\
    nth_error (proofs pf) i = Some (e0 :: e1 :: e2 :: rest) /\
    let c := nth i (sub_point sc) 0 in
    let honest := round_poly n P (firstn i (sub_point sc)) in
    c = fst (sample (append (e0 :: e1 :: e2 :: rest) (after append sample (firstn i (proofs pf)) t))) /\
    through e0 e1 e2 q /\ (exists x, q x <> honest x) /\ q c = honest c /\
    forall cs, NoDup cs -> (forall x, In x cs -> q x = honest x) -> (length cs <= 2)%nat.
Proof.
  intros H2 HP Hv He Hs.
  destruct n as [|n0].
  { unfold verify, verify_rounds in Hv. cbn in Hv. discriminate. }
  set (n := S n0) in *.
  destruct (Nat.lt_ge_cases (length (proofs pf)) n) as [Hlt|Hge].
  { unfold verify in Hv. rewrite verify_rounds_short in Hv by auto. discriminate. }
  rewrite verify_eq in Hv by (auto; unfold n; lia). cbn zeta in Hv.
  set (ms := firstn n (proofs pf)) in *.
  assert (Lm : length ms = n) by (unfold ms; rewrite firstn_length; lia).
  assert (Lc := vrun_length K T append sample ms t). rewrite Lm in Lc.
  destruct (check_rounds ms (fst (vrun K T append sample ms t)) s) as [[e|]|] eqn:Ec; cbn [obind] in Hv; try discriminate.
  assert (Esc : sc = {| sub_point := fst (vrun K T append sample ms t); expected_evaluation := e |}) by congruence.
  clear Hv. subst sc. cbn [sub_point expected_evaluation] in *.
  destruct (check_sound K n P H2 ms (fst (vrun K T append sample ms t)) [] s e ltac:(lia) ltac:(cbn [length]; lia) Ec He) as (i & m & c & Hm & Hc & (e0 & e1 & e2 & rest & -> & Hd & Hq)).
  { rewrite Lc. exact Hs. }
  cbn [app] in *.
  assert (Hi : (i < n)%nat) by (rewrite <- Lc; apply nth_error_Some; congruence).
  assert (Hm' : nth_error (proofs pf) i = Some (e0 :: e1 :: e2 :: rest)).
  { rewrite <- (firstn_skipn n (proofs pf)). rewrite nth_error_app1; auto. fold ms. lia. }
  exists i, e0, e1, e2, rest, (quad K e0 e1 e2). split; [auto|]. split; [auto|]. split; [exact Hm'|]. cbn zeta.
  rewrite (nth_error_nth _ _ 0 Hc). split.
  { assert (HC : forall ms t i m c, nth_error ms i = Some m -> nth_error (fst (vrun K T append sample ms t)) i = Some c ->
      c = fst (sample (append m (after append sample (firstn i ms) t)))).
    { clear. induction ms as [|m0 ms IH]; intros t [|i] m c Hm Hc; try discriminate.
      - cbn in Hm. injection Hm as ->. cbn [vrun] in Hc. cbn [firstn after fold_left].
        destruct (sample (append m t)) as [c' t']. destruct (vrun K T append sample ms t'). cbn in *. congruence.
      - cbn [nth_error] in Hm. cbn [vrun] in Hc. cbn [firstn]. unfold after. cbn [fold_left].
        destruct (sample (append m0 t)) as [c' t'] eqn:E. specialize (IH t' i m c Hm).
        destruct (vrun K T append sample ms t') as [cs t'']. cbn [fst nth_error snd] in *. now apply IH. }
    rewrite (HC ms t i _ c Hm Hc). unfold ms. rewrite firstn_firstn, Nat.min_l by lia. reflexivity. }
  split; [now apply quad_through|].
  destruct (quad_through K e0 e1 e2 H2) as (D & Q0 & Q1 & Q2).
  assert (Hx : exists x, quad K e0 e1 e2 x <> round_poly n P (firstn i (fst (vrun K T append sample ms t))) x).
  { destruct (feq_dec e0 (round_poly n P (firstn i (fst (vrun K T append sample ms t))) 0)) as [E0|E0].
    - exists 1. rewrite Q1. intros E1. apply Hd. congruence.
    - exists 0. now rewrite Q0. }
  split; [exact Hx|]. split; [exact Hq|].
  intros cs Hnd Hcs. destruct Hx as (x & Hx).
  apply (polyfn_agree K 2 (quad K e0 e1 e2) (round_poly n P (firstn i (fst (vrun K T append sample ms t)))) x cs D); auto.
  apply round_poly_degree; auto. rewrite firstn_length. lia.
Qed.

(** ** Adaptive provers *)
Lemma vrun_next ms : forall r, (length ms <= length r)%nat -> fst (vrun K (list K) ignore next ms r) = firstn (length ms) r.
Proof.
  induction ms as [|m ms IH]; intros r Hr; cbn [vrun length firstn]; auto.
  destruct r as [|c r]; cbn [length] in Hr; [lia|]. unfold ignore at 1. cbn [next].
  specialize (IH r ltac:(lia)). destruct (vrun K (list K) ignore next ms r) as [cs t]. cbn in *. now rewrite IH.
Qed.

Definition accepted n (P : list K -> K) s (prover : list K -> list K) (r : list K) : bool :=
  match verify ignore next s {| proofs := answers prover n r; point := [] |} n r with
  | Some (true, sc, _) => feqb (expected_evaluation sc) (P (sub_point sc))
  | _ => false
  end.

Theorem count n (P : list K -> K) s (prover : list K -> list K) (S : list K) :
  (1 + 1 : K) <> 0 -> individual_degree 2 n P -> s <> cube_sum n P -> NoDup S ->
  (length (filter (accepted n P s prover) (vectors n S)) <= 2 * n * length S ^ (n - 1))%nat.
Proof.
  intros H2 HP Hs HS.
  set (bd := fun pre a => match prover pre with
    | e0 :: e1 :: e2 :: _ => negb (feqb e0 (round_poly n P pre 0) && feqb e1 (round_poly n P pre 1))
                             && feqb (quad K e0 e1 e2 a) (round_poly n P pre a)
    | _ => false end).
  replace (2 * n)%nat with (total (fun _ => 2%nat) n) by (rewrite total_const; lia). replace (n - 1)%nat with (pred n) by lia.
  apply (count_bad n S _ bd).
  - intros pre Hp. unfold bd. destruct (prover pre) as [|e0 [|e1 [|e2 rest]]].
    1-3: rewrite (proj2 (length_zero_iff_nil _)); [lia|]; clear; induction S; cbn; auto.
    destruct (feqb e0 (round_poly n P pre 0) && feqb e1 (round_poly n P pre 1)) eqn:Eq.
    { cbn [negb andb]. rewrite (proj2 (length_zero_iff_nil _)); [lia|]. clear. induction S; cbn; auto. }
    cbn [negb andb]. destruct (quad_through K e0 e1 e2 H2) as (D & Q0 & Q1 & Q2).
    assert (Hx : exists x, quad K e0 e1 e2 x <> round_poly n P pre x).
    { apply andb_false_iff in Eq as [Eq|Eq].
      - exists 0. rewrite Q0. intros E. rewrite (proj2 (feqb_eq _ _) E) in Eq. discriminate.
      - exists 1. rewrite Q1. intros E. rewrite (proj2 (feqb_eq _ _) E) in Eq. discriminate. }
    destruct Hx as (x & Hx). apply (polyfn_agree K 2 (quad K e0 e1 e2) (round_poly n P pre) x); auto.
    + now apply round_poly_degree.
    + now apply NoDup_filter.
    + intros r Hr. apply filter_In in Hr as (_ & Hr). now apply feqb_eq.
  - intros v Hv Hacc. apply vectors_in in Hv as (Lv & _). unfold accepted in Hacc.
    destruct (verify ignore next s {| proofs := answers prover n v; point := [] |} n v) as [[[[] sc] t']|] eqn:Ev; try discriminate.
    apply feqb_eq in Hacc.
    destruct n as [|n0]; [unfold verify, verify_rounds in Ev; cbn in Ev; discriminate|]. set (n := Datatypes.S n0) in *.
    assert (La : length (answers prover n v) = n) by (unfold answers; now rewrite map_length, seq_length).
    rewrite verify_eq in Ev by (cbn [proofs]; unfold n in *; lia). cbn [proofs] in Ev. cbn zeta in Ev.
    rewrite (firstn_all2 (n := n) (answers prover n v)) in Ev by lia.
    assert (Ec : fst (vrun K (list K) ignore next (answers prover n v) v) = v).
    { rewrite vrun_next by lia. rewrite La. apply firstn_all2. lia. }
    rewrite Ec in Ev.
    destruct (check_rounds (answers prover n v) v s) as [[e|]|] eqn:Ek; cbn [obind] in Ev; try discriminate.
    assert (Esc : sc = {| sub_point := v; expected_evaluation := e |}) by congruence.
    subst sc. cbn [sub_point expected_evaluation] in Hacc.
    destruct (check_sound K n P H2 (answers prover n v) v [] s e ltac:(lia) ltac:(cbn [length]; lia) Ek Hacc) as (i & m & c & Hm & Hc & (e0 & e1 & e2 & rest & -> & Hd & Hq)).
    { rewrite Lv. exact Hs. }
    exists i, c. split; [exact Hc|]. unfold bd.
    assert (Hp : prover (firstn i v) = e0 :: e1 :: e2 :: rest).
    { assert (Hi : (i < n)%nat) by (rewrite <- Lv; apply nth_error_Some; congruence).
      unfold answers in Hm. rewrite nth_error_map, (nth_error_nth' _ O), seq_nth in Hm by (rewrite ?seq_length; auto).
      cbn [option_map Nat.add] in Hm. congruence. }
    rewrite Hp. cbn [app] in *. apply andb_true_iff. split; [|now apply feqb_eq].
    apply negb_true_iff. apply not_true_is_false. intros Ht. apply andb_true_iff in Ht as (T0 & T1).
    apply feqb_eq in T0, T1. apply Hd. congruence.
Qed.

(** A proof with too few messages is a panic. *)
Theorem short_proof T (append : list K -> T -> T) (sample : T -> K * T) s pf n t :
  (length (proofs pf) < n)%nat -> verify append sample s pf n t = None.
Proof. intros H. unfold verify. now rewrite verify_rounds_short. Qed.

End Main.

(** ** Totality of the verifier on well-shaped proofs *)
Section Total.
Variable K : field.
Local Open Scope fld_scope.

Lemma check_total (polys : list (list K)) : (1 + 1 : K) <> 0 -> (forall m, In m polys -> (3 <= length m)%nat) ->
  forall chals e, exists o, check_rounds polys chals e = Some o.
Proof.
  intros H2. induction polys as [|m ps IH]; intros H chals e; [cbn; eauto|]. destruct chals as [|c cs]; [cbn; eauto|].
  rewrite check_step by auto. specialize (H m (or_introl eq_refl)) as Hm.
  destruct m as [|e0 [|e1 [|e2 rest]]]; cbn [length] in Hm; try lia. cbn [aget nth_error obind].
  destruct (feqb e (e0 + e1)); [|eauto]. apply IH. intros; apply H; now right.
Qed.

Theorem verify_total T (append : list K -> T -> T) (sample : T -> K * T) s pf n t :
  (1 + 1 : K) <> 0 -> (1 <= n <= length (proofs pf))%nat -> (forall m, In m (proofs pf) -> (3 <= length m)%nat) ->
  exists b sc t', verify append sample s pf n t = Some (b, sc, t').
Proof.
  intros H2 (H1 & Hn) H. rewrite verify_eq by auto. cbn zeta.
  destruct (check_total (firstn n (proofs pf)) H2) with (chals := fst (vrun K T append sample (firstn n (proofs pf)) t)) (e := s)
    as ([e|] & E).
  { intros m Hm. apply H. rewrite <- (firstn_skipn n (proofs pf)). apply in_or_app. now left. }
  all: rewrite E; cbn [obind]; eauto.
Qed.

Theorem malformed T (append : list K -> T -> T) (sample : T -> K * T) (s : K) (t : T) :
  verify append sample s {| proofs := []; point := [] |} 1 t = None /\
  verify append sample s {| proofs := [[s; 0]]; point := [] |} 1 t = None.
Proof.
  split; [exact (short_proof K T append sample s {| proofs := []; point := [] |} 1 t (le_n 1))|].
  rewrite verify_eq by (cbn; auto). cbn [firstn proofs vrun]. destruct (sample (append [s; 0] t)) as [c t'].
  cbn [check_rounds fst snd aget nth_error obind]. rewrite fadd_0_r. now rewrite (proj2 (feqb_eq s s) eq_refl).
Qed.
End Total.
