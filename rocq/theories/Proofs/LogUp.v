(** Soundness and completeness of the LogUp argument. *)
From Coq Require Import List Arith Bool Lia Ring Field Permutation.
From Verif Require Import Base.Field Base.Poly Base.ListX Model.LogUp.
Import ListNotations.

Section LogUpProofs.
Variable K : field.
Add Field Kfield : (fth K).
Local Open Scope fld_scope.
Notation rat := (rational K).

Lemma rat_ext (a b : rat) : num a = num b -> den a = den b -> a = b.
Proof. destruct a, b; cbn; congruence. Qed.

Lemma add_rational_comm (a b : rat) : add_rational a b = add_rational b a.
Proof. apply rat_ext; cbn; ring. Qed.
Lemma add_rational_assoc (a b c : rat) :
  add_rational a (add_rational b c) = add_rational (add_rational a b) c.
Proof. apply rat_ext; cbn; ring. Qed.
Lemma add_rational_0 (a : rat) : add_rational a rat_zero = a.
Proof. apply rat_ext; cbn; ring. Qed.
Lemma add_rational_0_l (a : rat) : add_rational rat_zero a = a.
Proof. apply rat_ext; cbn; ring. Qed.

Fixpoint rsum (l : list rat) : rat :=
  match l with [] => rat_zero | a :: r => add_rational a (rsum r) end.

Lemma rsum_app l m : rsum (l ++ m) = add_rational (rsum l) (rsum m).
Proof.
  induction l as [|a l IH]; cbn [rsum app].
  - now rewrite add_rational_0_l.
  - rewrite IH. apply add_rational_assoc.
Qed.

Lemma rsum_map2 l m : length l = length m ->
  rsum (map2 add_rational l m) = add_rational (rsum l) (rsum m).
Proof.
  revert m. induction l as [|a l IH]; intros [|b m] H; cbn in H; try discriminate; cbn [map2 rsum].
  - now rewrite add_rational_0.
  - rewrite IH by lia. apply rat_ext; cbn; ring.
Qed.

Lemma odd_div2 n : n = (2 * Nat.div2 n + if Nat.odd n then 1 else 0)%nat.
Proof. rewrite (Nat.div2_odd n) at 1. unfold Nat.b2n. reflexivity. Qed.

Lemma sum_step_rsum vs : rsum (sum_step vs) = rsum vs.
Proof.
  unfold sum_step. set (n := length vs). set (h := Nat.div2 n).
  pose proof (odd_div2 n) as Hn. fold h in Hn.
  rewrite rsum_app, rsum_map2.
  2:{ rewrite !firstn_length, skipn_length. fold n.
      destruct (Nat.odd n); lia. }
  transitivity (rsum (firstn h vs ++ (firstn h (skipn h vs) ++ skipn h (skipn h vs))));
    [|now rewrite !firstn_skipn].
  rewrite !rsum_app, <- add_rational_assoc. do 2 f_equal.
  rewrite skipn_skipn'.
  destruct (Nat.odd n) eqn:Ho.
  - replace (n - 1)%nat with (h + h)%nat by lia. reflexivity.
  - rewrite skipn_all2; [reflexivity|]. fold n. lia.
Qed.

Lemma sum_step_length (vs : list rat) : length (sum_step vs) = Nat.div2 (S (length vs)).
Proof.
  unfold sum_step. set (n := length vs). set (h := Nat.div2 n).
  pose proof (odd_div2 n) as Hn. fold h in Hn.
  assert (G : forall (l m : list rat), length (map2 add_rational l m) = Nat.min (length l) (length m)).
  { induction l as [|a l IH]; intros [|b m]; cbn; try reflexivity. now rewrite IH. }
  rewrite app_length, G, !firstn_length, skipn_length. fold n.
  pose proof (odd_div2 (S n)) as Hs.
  rewrite Nat.odd_succ in Hs. rewrite <- Nat.negb_odd in Hs.
  destruct (Nat.odd n); cbn [negb] in Hs; rewrite ?skipn_length; fold n; cbn [length]; lia.
Qed.

(** The fuel given by the length is enough: one value is left. *)
Lemma sum_loop_one fuel (vs : list rat) : (length vs <= fuel)%nat -> vs <> [] ->
  exists a, sum_loop fuel vs = [a] /\ a = rsum vs.
Proof.
  revert vs. induction fuel as [|fuel IH]; intros vs Hf Hne.
  - destruct vs; [congruence|cbn in Hf; lia].
  - cbn [sum_loop]. destruct (Nat.leb (length vs) 1) eqn:E.
    + apply Nat.leb_le in E. destruct vs as [|a [|b l]]; [congruence| |cbn in E; lia].
      exists a. split; [reflexivity|]. cbn. now rewrite add_rational_0.
    + apply Nat.leb_gt in E.
      pose proof (sum_step_length vs) as Hl.
      pose proof (odd_div2 (S (length vs))) as Ho.
      destruct (IH (sum_step vs)) as [a [Ha Hs]].
      * destruct (Nat.odd (S (length vs))); lia.
      * intros Hz. rewrite Hz in Hl. cbn [length] in Hl.
        destruct (Nat.odd (S (length vs))); lia.
      * exists a. split; [exact Ha|]. rewrite Hs. apply sum_step_rsum.
Qed.

Theorem sum_rational_vec_rsum (vs : list rat) : sum_rational_vec vs = rsum vs.
Proof.
  unfold sum_rational_vec. destruct vs as [|v vs]; [reflexivity|].
  destruct (sum_loop_one (length (v :: vs)) (v :: vs)) as [a [Ha Hs]];
    [lia|discriminate|].
  rewrite Ha. cbn [hd]. exact Hs.
Qed.

(** Denominators: products of [x - v]. *)
Fixpoint vprod (vals : list K) (x : K) : K :=
  match vals with [] => 1 | v :: r => (x - v) * vprod r x end.

Definition terms (vc : list (K * K)) (x : K) : list rat :=
  map (fun vc => mkRat (snd vc) (x - fst vc)) vc.

Lemma den_rsum vc x : den (rsum (terms vc x)) = vprod (map fst vc) x.
Proof. induction vc as [|[v c] r IH]; cbn; [reflexivity|]. now rewrite <- IH. Qed.

Lemma vprod_poly vals : polyfn (length vals) (vprod vals).
Proof.
  induction vals as [|v vals IH]; cbn [length vprod].
  - apply polyfn_const.
  - change (S (length vals)) with (1 + length vals)%nat. apply polyfn_mul; [|exact IH].
    apply polyfn_sub; [apply polyfn_id; lia|apply polyfn_const].
Qed.

Lemma num_poly vc : polyfn (pred (length vc)) (fun x => num (rsum (terms vc x))).
Proof.
  induction vc as [|[v c] r IH]; cbn [length pred].
  - cbn. apply polyfn_const.
  - cbn [terms map rsum]. cbn [add_rational num snd fst].
    destruct r as [|e r'].
    + cbn. apply polyfn_ext with (f := fun _ => c); [intros; ring|]. apply polyfn_const.
    + remember (e :: r') as r.
      assert (L : length r = S (pred (length r))) by (subst r; reflexivity).
      apply polyfn_add.
      * apply polyfn_scale. apply polyfn_ext with (f := vprod (map fst r)).
        { intros x. symmetry. apply den_rsum. }
        pose proof (vprod_poly (map fst r)) as P. rewrite map_length in P. exact P.
      * rewrite L. change (S (pred (length r))) with (1 + pred (length r))%nat.
        apply (polyfn_mul K 1 (pred (length r)) (fun x => x - v)
           (fun x => num (rsum (terms r x)))); [|exact IH].
        apply polyfn_sub; [apply polyfn_id; lia|apply polyfn_const].
Qed.

Lemma vprod_root vals x : In x vals -> vprod vals x = 0.
Proof.
  induction vals as [|v vals IH]; cbn; [contradiction|].
  intros [->|H]; [ring|]. rewrite IH by assumption. ring.
Qed.

Lemma vprod_nz vals x : ~ In x vals -> vprod vals x <> 0.
Proof.
  induction vals as [|v vals IH]; cbn; intros H.
  - apply f1_neq_0.
  - apply fmul_nz; [|apply IH; tauto]. intros E. apply H. left.
    symmetry. now apply fsub_eq.
Qed.

(** ** Completeness *)

Definition kdec := @feq_dec K.

(** True multiplicities: how often each table key is queried. *)
Definition true_counts (table queries : list K) : list K :=
  map (fun t => f_of_nat (count_occ kdec queries t)) table.

Lemma rsum_perm l m : Permutation l m -> rsum l = rsum m.
Proof.
  induction 1; cbn [rsum]; try congruence.
  rewrite !add_rational_assoc. f_equal. apply add_rational_comm.
Qed.

Lemma logup_poly_val_spec vals counts x :
  logup_poly_val vals counts x = rsum (terms (combine vals counts) x).
Proof. unfold logup_poly_val. apply sum_rational_vec_rsum. Qed.

(** The sum of [1/(x-q)] over the queries, written as sum over the distinct
    table keys, up to multiplying numerator and denominator by a common
    factor: we prove the cross-multiplied form directly by induction on the
    queries. *)
Lemma num_cons v c vc x : num (rsum (terms ((v, c) :: vc) x))
  = c * vprod (map fst vc) x + (x - v) * num (rsum (terms vc x)).
Proof. rewrite <- den_rsum. reflexivity. Qed.

Lemma num_add_count table x (c1 c2 : K -> K) :
  num (rsum (terms (combine table (map (fun t => c1 t + c2 t) table)) x))
  = num (rsum (terms (combine table (map c1 table)) x))
    + num (rsum (terms (combine table (map c2 table)) x)).
Proof.
  induction table as [|t table IH]; cbn [map combine]; [cbn; ring|].
  rewrite !num_cons, IH, !map_fst_combine by now rewrite map_length. ring.
Qed.

Lemma num_zero_count table x (c : K -> K) : (forall t, In t table -> c t = 0) ->
  num (rsum (terms (combine table (map c table)) x)) = 0.
Proof.
  induction table as [|t table IH]; intros H; cbn [map combine]; [reflexivity|].
  rewrite num_cons.
  rewrite IH by (intros; apply H; now right). rewrite (H t) by now left. ring.
Qed.

Lemma num_indicator table x q : NoDup table -> In q table ->
  (x - q) * num (rsum (terms (combine table
     (map (fun t => if kdec q t then 1 else 0) table)) x)) = vprod table x.
Proof.
  induction table as [|t table IH]; intros ND Hin; [contradiction|].
  inversion ND as [|? ? Hnin ND']; subst.
  cbn [map combine vprod]. rewrite num_cons, map_fst_combine by now rewrite map_length.
  destruct (kdec q t) as [->|n].
  - rewrite (num_zero_count table x).
    2:{ intros s Hs. destruct (kdec t s) as [->|]; [contradiction|reflexivity]. }
    ring.
  - destruct Hin as [E|Hin]; [congruence|].
    rewrite <- (IH ND' Hin). ring.
Qed.

Lemma cross_eq table queries x : NoDup table -> (forall q, In q queries -> In q table) ->
  num (rsum (terms (combine table (true_counts table queries)) x)) * vprod queries x
  = vprod table x * num (rsum (terms (combine queries (repeat 1 (length queries))) x)).
Proof.
  intros ND. induction queries as [|q queries IH]; intros Hin.
  - unfold true_counts. rewrite (num_zero_count table x); [cbn; ring|]. intros; reflexivity.
  - unfold true_counts.
    assert (E : forall t, f_of_nat (count_occ kdec (q :: queries) t)
        = (if kdec q t then 1 else 0) + f_of_nat (K:=K) (count_occ kdec queries t)).
    { intros t. cbn [count_occ]. destruct (kdec q t); cbn [f_of_nat]; ring. }
    rewrite (map_ext _ _ E).
    rewrite num_add_count.
    cbn [length repeat combine vprod]. rewrite num_cons.
    rewrite (map_fst_combine queries) by now rewrite repeat_length.
    fold (true_counts table queries).
    specialize (IH (fun q' h => Hin q' (or_intror h))).
    assert (Hq : In q table) by (apply Hin; now left).
    pose proof (num_indicator table x q ND Hq) as HI.
    match goal with |- (?A + ?B) * ((x - q) * ?V) = _ =>
      transitivity (((x - q) * A) * V + (x - q) * (B * V)); [ring|] end.
    rewrite HI, IH. ring.
Qed.

Theorem range_complete (table queries : list K) alpha :
  NoDup table -> (forall q, In q queries -> In q table) ->
  range_final_check table queries (true_counts table queries) alpha.
Proof.
  intros ND Hin. unfold range_final_check.
  destruct queries as [|q0 qs] eqn:EQ; [exact I|]. rewrite <- EQ in *.
  unfold assert_eq_rational. rewrite !logup_poly_val_spec, !den_rsum.
  rewrite !map_fst_combine.
  - apply cross_eq; assumption.
  - unfold true_counts. now rewrite map_length.
  - now rewrite repeat_length.
Qed.

(** ** Soundness *)

Lemma vprod_app l m x : vprod (l ++ m) x = vprod l x * vprod m x.
Proof. induction l as [|a l IH]; cbn; [ring|]. rewrite IH. ring. Qed.

Lemma vprod_repeat q m x : vprod (repeat q m) x = fpow (x - q) m.
Proof. induction m as [|m IH]; cbn; [reflexivity|]. now rewrite IH. Qed.

Definition unit_terms (qs : list K) (x : K) : list rat :=
  terms (combine qs (repeat 1 (length qs))) x.

Lemma unit_terms_app l m x : unit_terms (l ++ m) x = unit_terms l x ++ unit_terms m x.
Proof.
  unfold unit_terms, terms. induction l as [|a l IH]; [reflexivity|].
  cbn. f_equal. exact IH.
Qed.

Lemma unit_terms_perm l m x : Permutation l m -> Permutation (unit_terms l x) (unit_terms m x).
Proof.
  unfold unit_terms, terms. induction 1; cbn.
  - constructor.
  - now constructor.
  - apply perm_swap.
  - etransitivity; eassumption.
Qed.

Lemma den_unit qs x : den (rsum (unit_terms qs x)) = vprod qs x.
Proof. unfold unit_terms. rewrite den_rsum, map_fst_combine; [reflexivity|]. now rewrite repeat_length. Qed.

Lemma num_unit_repeat q m x :
  num (rsum (unit_terms (repeat q (S m)) x)) = f_of_nat (S m) * fpow (x - q) m.
Proof.
  induction m as [|m IH].
  - cbn. ring.
  - change (repeat q (S (S m))) with ([q] ++ repeat q (S m)).
    rewrite unit_terms_app, rsum_app.
    cbn [add_rational num]. rewrite IH, den_unit, vprod_repeat.
    cbn [unit_terms terms combine repeat length map rsum add_rational num den fst snd fpow].
    cbn [f_of_nat]. ring_simplify. cbn [rat_zero num den]. ring.
Qed.

Lemma perm_split (qs : list K) q :
  Permutation qs (repeat q (count_occ kdec qs q) ++ remove kdec q qs).
Proof.
  induction qs as [|a qs IH]; [constructor|].
  cbn [count_occ remove]. destruct (kdec a q) as [->|n].
  - destruct (kdec q q); [|congruence]. cbn. now constructor.
  - destruct (kdec q a); [congruence|].
    etransitivity; [constructor; exact IH|]. apply Permutation_middle.
Qed.

(** If some query is outside the table, only few challenges are accepted,
    whatever the multiplicities. *)
Theorem range_sound (table queries counts : list K) q alphas :
  length counts = length table ->
  In q queries -> ~ In q table ->
  (forall m, (0 < m <= length queries)%nat -> f_of_nat (K:=K) m <> 0) ->
  NoDup alphas ->
  (forall a, In a alphas -> range_final_check table queries counts a) ->
  (length alphas < length table + length queries)%nat.
Proof.
  intros Hlen Hq Hnt Hchar Hnd Hacc.
  set (m0 := count_occ kdec queries q).
  assert (Hm0 : (0 < m0)%nat) by (apply (count_occ_In kdec); exact Hq).
  set (rest := remove kdec q queries).
  assert (Hperm : Permutation queries (repeat q m0 ++ rest)) by apply perm_split.
  assert (Hlq : length queries = (m0 + length rest)%nat).
  { rewrite (Permutation_length Hperm), app_length, repeat_length. reflexivity. }
  destruct m0 as [|m] eqn:Em; [lia|].
  set (NT := fun x => num (rsum (terms (combine table counts) x))).
  set (NR := fun x => num (rsum (unit_terms rest x))).
  (* the bracket *)
  set (G := fun x => (x - q) * (NT x * vprod rest x)
       - (f_of_nat (S m) * vprod rest x + (x - q) * NR x) * vprod table x).
  assert (HG : polyfn (length table + length rest) G).
  { assert (PT : polyfn (pred (length table)) NT).
    { unfold NT. pose proof (num_poly (combine table counts)) as P.
      rewrite combine_length, Hlen, Nat.min_id in P. exact P. }
    assert (PR : polyfn (pred (length rest)) NR).
    { unfold NR. pose proof (num_poly (combine rest (repeat 1 (length rest)))) as P.
      rewrite combine_length, repeat_length, Nat.min_id in P. exact P. }
    assert (PX : polyfn 1 (fun x => x - q)).
    { apply polyfn_sub; [apply polyfn_id; lia|apply polyfn_const]. }
    unfold G. apply polyfn_sub.
    - destruct table as [|t0 tb] eqn:ET.
      + (* empty table: NT is 0 *)
        assert (E0 : forall x, NT x = 0) by reflexivity.
        apply polyfn_ext with (f := fun _ => 0); [intros x; rewrite E0; ring|apply polyfn_const].
      + apply polyfn_le with (m := (1 + (pred (length (t0 :: tb)) + length rest))%nat).
        { cbn [length]. lia. }
        apply (polyfn_mul K 1 (pred (length (t0 :: tb)) + length rest) (fun x => x - q)
          (fun x => NT x * vprod rest x)); [exact PX|].
        apply (polyfn_mul K _ _ NT (vprod rest)); [exact PT|apply vprod_poly].
    - apply polyfn_le with (m := (length rest + length table)%nat); [lia|].
      apply (polyfn_mul K _ _ (fun x => f_of_nat (S m) * vprod rest x + (x - q) * NR x) (vprod table));
        [|apply vprod_poly].
      apply polyfn_add; [apply polyfn_scale, vprod_poly|].
      destruct rest as [|r0 rr] eqn:ER.
      + apply polyfn_ext with (f := fun _ => 0).
        { intros x. unfold NR. cbn. ring. }
        apply polyfn_const.
      + change (length (r0 :: rr)) with (1 + pred (length (r0 :: rr)))%nat.
        apply (polyfn_mul K 1 _ (fun x => x - q) NR); [exact PX|exact PR]. }
  assert (HGq : G q <> 0).
  { unfold G.
    assert (E : (q - q) * (NT q * vprod rest q)
       - (f_of_nat (S m) * vprod rest q + (q - q) * NR q) * vprod table q
       = - (f_of_nat (S m) * vprod rest q * vprod table q)) by ring.
    rewrite E. intros Hz.
    assert (Hz' : f_of_nat (S m) * vprod rest q * vprod table q = 0).
    { transitivity (- (- (f_of_nat (S m) * vprod rest q * vprod table q))); [ring|].
      rewrite Hz. ring. }
    revert Hz'. apply fmul_nz; [apply fmul_nz|].
    - apply Hchar. lia.
    - apply vprod_nz. unfold rest. apply remove_In.
    - apply vprod_nz. exact Hnt. }
  (* the accepted equation factors *)
  assert (HF : forall a, In a alphas -> fpow (a - q) m * G a = 0).
  { intros a Ha. specialize (Hacc a Ha). unfold range_final_check in Hacc.
    destruct queries as [|q0 qs] eqn:EQ; [contradiction|]. rewrite <- EQ in *.
    unfold assert_eq_rational in Hacc. rewrite !logup_poly_val_spec in Hacc.
    fold (unit_terms queries a) in Hacc.
    rewrite (rsum_perm _ _ (unit_terms_perm _ _ a Hperm)) in Hacc.
    rewrite unit_terms_app, rsum_app in Hacc.
    rewrite (den_rsum (combine table counts)) in Hacc.
    rewrite map_fst_combine in Hacc by now symmetry.
    cbn [add_rational num den] in Hacc.
    rewrite !den_unit, num_unit_repeat, vprod_repeat in Hacc.
    fold (NT a) in Hacc. fold (NR a) in Hacc. cbn [fpow] in Hacc.
    apply (proj2 (fsub_eq K _ _)) in Hacc. unfold G. rewrite <- Hacc. ring. }
  (* count *)
  assert (HB : (length alphas <= length table + length rest + (if m then 0 else 1))%nat).
  { destruct m as [|m'].
    - rewrite Nat.add_0_r. apply polyfn_roots with (f := G) (x0 := q); auto.
      intros r Hr. specialize (HF r Hr). cbn in HF. rewrite <- HF. ring.
    - assert (HL : (length (remove kdec q alphas) <= length table + length rest)%nat).
      { apply polyfn_roots with (f := G) (x0 := q); auto.
        - clear - Hnd. induction Hnd as [|x l Hx Hnd IH]; cbn; [constructor|].
          destruct (kdec q x); [assumption|]. constructor; [|assumption].
          intros Hin. apply Hx. now apply in_remove in Hin.
        - intros r Hr. apply in_remove in Hr as [Hr Hne].
          specialize (HF r Hr). apply fmul_integral in HF as [HF|HF]; [|exact HF].
          exfalso. clear - HF Hne. revert HF. generalize (S m') as k.
          induction k as [|k IH]; cbn; [apply f1_neq_0|].
          apply fmul_nz; [|exact IH]. intros E. apply Hne. now apply fsub_eq. }
      pose proof (perm_split alphas q) as P. apply Permutation_length in P.
      rewrite app_length, repeat_length in P.
      pose proof (proj1 (NoDup_count_occ kdec alphas) Hnd q). lia. }
  destruct m; lia.
Qed.

(** ** Tables with value columns *)

Lemma combine_row_snoc_aux (row rnd : list K) acc :
  fold_left (fun acc vr => acc + fst vr * snd vr) (combine row rnd) acc
  = acc + fold_left (fun acc vr => acc + fst vr * snd vr) (combine row rnd) (0 : K).
Proof.
  revert rnd acc. induction row as [|v row IH]; intros [|r rnd] acc; cbn; try ring.
  rewrite IH, (IH rnd (0 + v * r)). ring.
Qed.

Lemma combine_row_two (k v b : K) : combine_row [k; v] (column_randomness [b]) = k + v * b.
Proof. unfold combine_row, column_randomness. cbn. ring. Qed.

Theorem single_key_complete (table queries : list (list K)) alpha betas :
  table <> [] -> queries <> [] ->
  NoDup (combine_columns table (column_randomness betas)) ->
  (forall q, In q queries -> In q table) ->
  single_key_final_check table queries
    (true_counts (combine_columns table (column_randomness betas))
                 (combine_columns queries (column_randomness betas))) alpha betas.
Proof.
  intros Ht Hq ND Hin. unfold single_key_final_check.
  destruct table as [|t0 tb] eqn:ET; [congruence|].
  destruct queries as [|q0 qs] eqn:EQ; [congruence|]. rewrite <- ET, <- EQ in *.
  assert (R := range_complete (combine_columns table (column_randomness betas))
     (combine_columns queries (column_randomness betas)) alpha ND).
  unfold range_final_check in R.
  destruct (combine_columns queries (column_randomness betas)) as [|c cs] eqn:EC.
  - rewrite EQ in EC. discriminate EC.
  - apply R. rewrite <- EC. intros q Hq'. unfold combine_columns in *.
    apply in_map_iff in Hq' as [row [<- Hr]].
    apply (in_map (fun row => combine_row row (column_randomness betas))). now apply Hin.
Qed.

Theorem single_key_sound (table queries : list (list K)) counts row alphas betas :
  length counts = length table ->
  In row queries ->
  ~ In (combine_row row (column_randomness betas)) (combine_columns table (column_randomness betas)) ->
  (forall m, (0 < m <= length queries)%nat -> f_of_nat (K:=K) m <> 0) ->
  NoDup alphas ->
  (forall a, In a alphas -> single_key_final_check table queries counts a betas) ->
  (length alphas < length table + length queries)%nat.
Proof.
  intros Hlen Hq Hnt Hchar Hnd Hacc.
  assert (R := range_sound (combine_columns table (column_randomness betas))
     (combine_columns queries (column_randomness betas)) counts
     (combine_row row (column_randomness betas)) alphas).
  unfold combine_columns in R at 1 2 5 6. unfold combine_columns in R.
  rewrite !map_length in R. apply R; auto.
  - apply in_map_iff. now exists row.
  - intros a Ha. specialize (Hacc a Ha). unfold single_key_final_check in Hacc.
    destruct table as [|t0 tb] eqn:ET; [contradiction|].
    destruct queries as [|q0 qs] eqn:EQ; [contradiction|].
    unfold range_final_check. cbn [map]. unfold combine_columns in Hacc. cbn [map] in Hacc.
    exact Hacc.
Qed.

(** Collision of a (key,value) row with some table row happens for at most one
    [beta] per table row. *)
Theorem column_collision_bound (table : list (K * K)) k v bs :
  ~ In (k, v) table -> NoDup bs ->
  (forall b, In b bs -> In (combine_row [k; v] (column_randomness [b]))
     (combine_columns (map (fun kv => [fst kv; snd kv]) table) (column_randomness [b]))) ->
  (length bs <= length table)%nat.
Proof.
  revert bs. induction table as [|[tk tv] table IH]; intros bs Hn ND H.
  - destruct bs as [|b bs]; [cbn; lia|]. exfalso. apply (H b). now left.
  - (* remove the beta that collides with the first row *)
    set (coll := fun b => if feq_dec (k + v * b) (tk + tv * b) then true else false).
    assert (L1 : (length (filter coll bs) <= 1)%nat).
    { assert (ND1 : NoDup (filter coll bs)) by now apply NoDup_filter.
      destruct (feq_dec v tv) as [->|nv].
      - (* equal values: keys must differ, no collision *)
        destruct (filter coll bs) as [|b l] eqn:E; [cbn; lia|].
        exfalso. assert (Hb : In b (filter coll bs)) by (rewrite E; now left).
        apply filter_In in Hb as [_ Hb]. unfold coll in Hb.
        destruct (feq_dec (k + tv * b) (tk + tv * b)) as [e|]; [|discriminate].
        apply Hn. left. f_equal.
        transitivity (tk + tv * b - tv * b); [ring|]. rewrite <- e. ring.
      - apply polyfn_roots with (f := fun b => (k - tk) + (v - tv) * b)
          (x0 := (1 - (k - tk)) / (v - tv)); auto.
        + apply polyfn_add; [apply polyfn_const|apply polyfn_scale, polyfn_id; lia].
        + intros E. apply (f1_neq_0 K). rewrite <- E. field.
          intros E2. apply nv. now apply fsub_eq.
        + intros r Hr. apply filter_In in Hr as [_ Hr]. unfold coll in Hr.
          destruct (feq_dec (k + v * r) (tk + tv * r)) as [e|]; [|discriminate].
          transitivity (k + v * r - (tk + tv * r)); [ring|]. rewrite e. ring. }
    assert (L2 : (length (filter (fun b => negb (coll b)) bs) <= length table)%nat).
    { apply IH.
      - intros Hin. apply Hn. now right.
      - now apply NoDup_filter.
      - intros b Hb. apply filter_In in Hb as [Hb Hc]. specialize (H b Hb).
        cbn [map combine_columns fst snd] in H. unfold combine_columns in H. cbn [map] in H.
        destruct H as [H|H]; [|exact H].
        exfalso. rewrite !combine_row_two in H. unfold coll in Hc.
        destruct (feq_dec (k + v * b) (tk + tv * b)); [discriminate|]. now apply n. }
    assert (L3 : length bs = (length (filter coll bs) + length (filter (fun b => negb (coll b)) bs))%nat).
    { clear. induction bs as [|b bs IH]; [reflexivity|]. cbn [filter].
      destruct (coll b); cbn [negb length]; lia. }
    cbn [length]. lia.
Qed.

End LogUpProofs.
