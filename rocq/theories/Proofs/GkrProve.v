(** The modelled prover refines the honest prover of Proofs/GkrHonest.v. *)
From Coq Require Import List Bool Arith Lia Ring Field.
From Verif Require Import Base.Field Base.Array Spec.Multilinear Spec.Sumcheck Spec.Gkr Model.Polynomials Model.Layered Model.Gkr Model.GkrProver
  Proofs.Multilinear Proofs.Polynomials Proofs.Sumcheck Proofs.GkrClean Proofs.GkrVerify Proofs.GkrAlg Proofs.GkrLayer Proofs.GkrSound Proofs.GkrHonest Proofs.GkrRounds.
Import ListNotations.

Section Proofs.
Variable K : field.
Add Field Kf : (fth K).
Local Open Scope fld_scope.
Variable simd_vars : nat.
Local Notation simd := (list K).
Local Notation pack := (pack simd_vars).
Local Notation tab := (tab K simd_vars).
Local Notation player := (player K).
Local Notation pgate := (pgate K).
Local Notation ch_ok := (ch_ok K simd_vars 0).

(** lane j of SIMD values *)
Definition lane (vals : list simd) (j : nat) : list K := map (fun v => nth j v 0) vals.
Definition lanes (vals : list simd) (k j : nat) : list K := lane vals j.
Lemma tab_self (v : simd) : length v = pack -> v = tab (fun j => nth j v 0).
Proof.
  intros L. unfold GkrRounds.tab. rewrite <- L. clear L. induction v as [|a v IH]; [reflexivity|].
  cbn [length seq map nth]. f_equal. rewrite <- seq_shift, map_map. exact IH.
Qed.
Lemma lane_nth vals j i : nth i (lane vals j) 0 = nth j (nth i vals []) 0.
Proof.
  unfold lane. destruct (Nat.lt_ge_cases i (length vals)) as [H|H].
  - rewrite (nth_indep _ 0 ((fun v => nth j v 0) [])) by (now rewrite map_length). now rewrite (map_nth (fun v => nth j v 0)).
  - rewrite (nth_overflow vals) by lia. rewrite nth_overflow by (now rewrite map_length). now destruct j.
Qed.
Lemma vals_pre vals n : simd_ok simd_vars vals -> length vals = n -> gpre vals n n (fun i => tab (fun j => as_values (lanes vals) 0%nat j i)).
Proof.
  intros HS L. split; [auto|]. split; auto. intros i Hi. rewrite (nth_error_nth' _ []) by lia. f_equal.
  rewrite (tab_self (nth i vals [])) at 1.
  - apply tab_ext. intros j _. unfold as_values, lanes. now rewrite lane_nth.
  - apply HS. apply nth_In. lia.
Qed.

(** ** Scattering gate contributions *)
Lemma scatter_ok {A} (gs : list A) (tgt : A -> nat) (w : A -> nat -> K) n N M : (forall g, In g gs -> (tgt g < n)%nat) -> forall hg ge H G,
  gpre hg N n (fun i => tab (H i)) -> gpre ge M n G ->
  (forall i j, (i < n)%nat -> (j < pack)%nat -> G i = false -> H i j = 0) ->
  exists hg' ge' G', for_each gs (fun g (st : list simd * list bool) =>
      let (hg, ge) := st in
      let* x := aget hg (tgt g) in let* hg := aset hg (tgt g) (padd K x (tab (w g))) in
      let* ge := aset ge (tgt g) true in Some (hg, ge)) (hg, ge) = Some (hg', ge') /\
    gpre hg' N n (fun i => tab (fun j => H i j + fsum (map (fun g => w g j * ind K (tgt g) i) gs))) /\ gpre ge' M n G' /\
    (forall i j, (i < n)%nat -> (j < pack)%nat -> G' i = false -> H i j + fsum (map (fun g => w g j * ind K (tgt g) i) gs) = 0).
Proof.
  induction gs as [|g gs IH]; intros HT hg ge H G Hh Hg HZ.
  - exists hg, ge, G. split; [reflexivity|]. split; [|split; auto].
    + eapply gpre_ext; [exact Hh|]. intros i _. apply tab_ext. intros j _. cbn. ring.
    + intros i j Hi Hj Eg. rewrite HZ by auto. cbn. ring.
  - assert (Ht : (tgt g < n)%nat) by (apply HT; now left). cbn [for_each].
    rewrite (gpre_get _ _ _ _ (tgt g) Hh Ht). cbn [obind]. rewrite padd_tab.
    destruct (gpre_set hg N n _ (tgt g) (tab (fun j => H (tgt g) j + w g j)) Hh Ht) as (hg1 & E1 & H1). rewrite E1. cbn [obind].
    destruct (gpre_set ge M n _ (tgt g) true Hg Ht) as (ge1 & E2 & H2). rewrite E2. cbn [obind].
    destruct (IH (fun g' Hg' => HT g' (or_intror Hg')) hg1 ge1 (fun i j => H i j + w g j * ind K (tgt g) i) (fun i => if (i =? tgt g)%nat then true else G i))
      as (hg' & ge' & G' & E & P1 & P2 & P3).
    + eapply gpre_ext; [exact H1|]. intros i Hi. cbv beta. unfold ind. rewrite (Nat.eqb_sym (tgt g) i).
      destruct (Nat.eqb_spec i (tgt g)) as [->|Hne]; apply tab_ext; intros j _; ring.
    + exact H2.
    + intros i j Hi Hj Eg. unfold ind. rewrite (Nat.eqb_sym (tgt g) i). destruct (Nat.eqb_spec i (tgt g)) as [->|Hne]; [discriminate|].
      rewrite HZ by auto. ring.
    + exists hg', ge', G'. split; [exact E|]. split; [|split; auto].
      * eapply gpre_ext; [exact P1|]. intros i Hi. apply tab_ext. intros j _. cbn [map fsum]. ring.
      * intros i j Hi Hj Eg. rewrite <- (P3 i j Hi Hj Eg). cbn [map fsum]. ring.
Qed.

Lemma fill_ok {A} n (x : A) a N : length a = N -> (n <= N)%nat -> exists a', fill n x a = Some a' /\ gpre a' N n (fun _ => x).
Proof.
  intros L Hn. unfold fill. rewrite (proj2 (Nat.leb_le n (length a))) by lia. cbn [guard obind]. eexists. split; [reflexivity|].
  split; [rewrite app_length, repeat_length, skipn_length; lia|]. split; [auto|]. intros i Hi.
  rewrite nth_error_app1 by (now rewrite repeat_length). now apply nth_error_repeat.
Qed.

Lemma eq_eval_gpre (r : list K) (m : K) (e s1 s2 : list K) Ne N : length e = Ne -> length s1 = N -> length s2 = N ->
  (2 ^ length r <= Ne)%nat -> (2 ^ length r <= N)%nat ->
  exists e' s1' s2', eq_eval_at r m e s1 s2 = Some (e', s1', s2') /\
    gpre e' Ne (2 ^ length r) (fun i => m * eq_point r i) /\ length s1' = N /\ length s2' = N.
Proof.
  intros He H1 H2 HNe HN.
  destruct (eq_eval_at_ok K r m e s1 s2 Ne N N (fun i => nth i e 0) (fun i => nth i s1 0) (fun i => nth i s2 0))
    as (e' & s1' & s2' & E & (Le & Ha) & L1 & L2).
  - rewrite <- He. apply arr_self.
  - rewrite <- H1. apply arr_self.
  - rewrite <- H2. apply arr_self.
  - etransitivity; [|exact HN]. apply Nat.pow_le_mono_r; [lia|]. apply Nat.div_le_upper_bound; lia.
  - etransitivity; [|exact HN]. apply Nat.pow_le_mono_r; lia.
  - exists e', s1', s2'. split; [exact E|]. split; [|auto]. split; [auto|]. split; [auto|].
    intros i Hi. rewrite Ha by lia. apply Nat.ltb_lt in Hi. now rewrite Hi.
Qed.
Lemma eq_eval_one (r e s1 s2 : list K) Ne N : length e = Ne -> length s1 = N -> length s2 = N ->
  (2 ^ length r <= Ne)%nat -> (2 ^ length r <= N)%nat ->
  exists e' s1' s2', eq_eval_at r 1 e s1 s2 = Some (e', s1', s2') /\
    gpre e' Ne (2 ^ length r) (eq_point r) /\ length s1' = N /\ length s2' = N.
Proof.
  intros He H1 H2 HNe HN. destruct (eq_eval_gpre r 1 e s1 s2 Ne N He H1 H2 HNe HN) as (e' & s1' & s2' & E & P & L).
  exists e', s1', s2'. split; [exact E|]. split; [|exact L]. eapply gpre_ext; [exact P|]. intros i _. cbv beta. ring.
Qed.

(** ** One layer *)
Variables MI MO : nat.
Definition half : nat := Nat.max (Nat.max (Nat.max (2 ^ MI) (2 ^ MO)) pack) 1.
Record sp_ok (sp : ppad K) : Prop := {
  so_v : length (pp_v_evals sp) = (2 ^ MI)%nat;
  so_hg : length (pp_hg_evals sp) = (2 ^ MI)%nat;
  so_rx : length (pp_eq_rx sp) = (2 ^ MI)%nat;
  so_rz0 : length (pp_eq_rz0 sp) = (2 ^ MO)%nat;
  so_simd : length (pp_eq_r_simd0 sp) = pack;
  so_h1 : length (pp_half1 sp) = half;
  so_h2 : length (pp_half2 sp) = half;
  so_ge : length (pp_gate_exists sp) = (2 ^ MI)%nat }.
(** the tables kept from the layer before *)
Definition kept (ch : dual_challenge K) (sp : ppad K) : Prop :=
  rz_1 ch <> None -> gpre (pp_eq_rx sp) (2 ^ MI) (2 ^ length (rz_0 ch)) (eq_point (rz_0 ch)) /\ gpre (pp_eq_r_simd0 sp) pack pack (eq_point (r_simd ch)).

Section Layer.
Variables (l : player) (vals : list simd) (ch : dual_challenge K) (alpha : option K) (np : nat).
Hypothesis HL : layer_ok np l.
Hypothesis HI : (1 <= pl_ivars K l <= MI)%nat.
Hypothesis HO : (pl_ovars K l <= MO)%nat.
Hypothesis HV : simd_ok simd_vars vals.
Hypothesis LV : length vals = (2 ^ pl_ivars K l)%nat.
Hypothesis C : ch_ok (pl_ovars K l) ch.
Hypothesis SA : same_none (rz_1 ch) alpha = true.
Local Notation n := (pl_ivars K l).
Local Notation hgF := (fun i j => hg K l ch alpha (lanes vals) 0%nat j i).
Local Notation VF := (fun i j => as_values (lanes vals) 0%nat j i).

Lemma weight_table (is_out : bool) sp : sp_ok sp -> kept ch sp -> (is_out = true -> rz_1 ch = None) ->
  exists rz0 h1 h2,
    match is_out, rz_1 ch, alpha with
    | false, Some z1, Some a =>
      let* (rz0, h1, h2) := eq_eval_at z1 a (pp_eq_rz0 sp) (pp_half1 sp) (pp_half2 sp) in
      let* rz0 := for_in (seq 0 (2 ^ length (rz_0 ch))) (fun i t =>
          let* x := aget t i in let* y := aget (pp_eq_rx sp) i in aset t i (x + y)) rz0 in
      Some (rz0, h1, h2)
    | _, _, _ => eq_eval_at (rz_0 ch) 1 (pp_eq_rz0 sp) (pp_half1 sp) (pp_half2 sp)
    end = Some (rz0, h1, h2) /\ gpre rz0 (2 ^ MO) (2 ^ pl_ovars K l) (weight K ch alpha) /\ length h1 = half /\ length h2 = half.
Proof.
  intros S Hk Ho. destruct C as [Z0 Z1 Rs Rm]. destruct S.
  assert (HP : (2 ^ pl_ovars K l <= 2 ^ MO)%nat) by (apply Nat.pow_le_mono_r; lia).
  assert (HN : (2 ^ pl_ovars K l <= half)%nat) by (unfold half; lia).
  assert (X : rz_1 ch = None \/ alpha = None -> exists rz0 h1 h2, eq_eval_at (rz_0 ch) 1 (pp_eq_rz0 sp) (pp_half1 sp) (pp_half2 sp) = Some (rz0, h1, h2) /\
     gpre rz0 (2 ^ MO) (2 ^ pl_ovars K l) (weight K ch alpha) /\ length h1 = half /\ length h2 = half).
  { intros HX. destruct (eq_eval_one (rz_0 ch) (pp_eq_rz0 sp) (pp_half1 sp) (pp_half2 sp) (2 ^ MO) half) as (e & s1 & s2 & E & P & L1 & L2); auto; try (now rewrite Z0).
    exists e, s1, s2. split; [exact E|]. split; [|auto]. rewrite Z0 in P. eapply gpre_ext; [exact P|]. intros i _. unfold weight.
    destruct HX as [-> | ->]; [destruct alpha|]; ring. }
  destruct is_out; [apply X; left; now apply Ho|].
  destruct (rz_1 ch) as [z1|] eqn:Ez; [|apply X; now left]. destruct alpha as [a|]; [|discriminate].
  clear X. destruct (Hk ltac:(congruence)) as (Kx & _). rewrite Z0 in *.
  destruct (eq_eval_gpre z1 a (pp_eq_rz0 sp) (pp_half1 sp) (pp_half2 sp) (2 ^ MO) half) as (e & s1 & s2 & E & P & L1 & L2); auto; try (now rewrite (Z1 z1 eq_refl)).
  rewrite (Z1 z1 eq_refl) in P. rewrite E. cbn [obind].
  destruct (for_seq (fun j t => gpre t (2 ^ MO) (2 ^ pl_ovars K l) (fun i => a * eq_point z1 i + if (i <? j)%nat then eq_point (rz_0 ch) i else 0))
    (fun i t => let* x := aget t i in let* y := aget (pp_eq_rx sp) i in aset t i (x + y)) 0 (2 ^ pl_ovars K l) e) as (t' & Et & Pt).
  - eapply gpre_ext; [exact P|]. intros i _. cbn. ring.
  - intros j t Hj Pt. rewrite (gpre_get _ _ _ _ j Pt) by lia. cbn [obind]. rewrite (gpre_get _ _ _ _ j Kx) by lia. cbn [obind].
    match goal with |- context [aset t j ?v] => destruct (gpre_set t _ _ _ j v Pt) as (t' & E' & P'); [lia|] end.
    exists t'. split; [exact E'|]. eapply gpre_ext; [exact P'|]. intros i Hi. cbv beta. nb; subst; ring.
  - rewrite Et. cbn [obind]. do 3 eexists. split; [reflexivity|]. split; [|auto]. eapply gpre_ext; [exact Pt|].
    intros i Hi. cbv beta. unfold weight. rewrite Ez. nb. ring.
Qed.

Lemma prepare_x_ok (is_out : bool) sp : sp_ok sp -> kept ch sp -> (is_out = true -> rz_1 ch = None) ->
  exists rz0 hg ge h1 h2 G, prepare_x_vals K simd_vars l vals ch alpha is_out sp = Some (rz0, hg, ge, h1, h2) /\
    gpre rz0 (2 ^ MO) (2 ^ pl_ovars K l) (weight K ch alpha) /\ length h1 = half /\ length h2 = half /\
    gpre hg (2 ^ MI) (2 ^ n) (fun i => tab (hgF i)) /\ gpre ge (2 ^ MI) (2 ^ n) G /\
    (forall i j, (i < 2 ^ n)%nat -> (j < pack)%nat -> G i = false -> hgF i j = 0).
Proof.
  intros S Hk Ho. unfold prepare_x_vals. rewrite LV.
  assert (HP : (2 ^ n <= 2 ^ MI)%nat) by (apply Nat.pow_le_mono_r; lia).
  destruct (fill_ok (2 ^ n) (pzero K simd_vars) (pp_hg_evals sp) (2 ^ MI) (so_hg _ S) HP) as (hg0 & E1 & P1). rewrite E1. cbn [obind].
  destruct (fill_ok (2 ^ n) false (pp_gate_exists sp) (2 ^ MI) (so_ge _ S) HP) as (ge0 & E2 & P2). rewrite E2. cbn [obind].
  rewrite SA. cbn [guard obind].
  destruct (weight_table is_out sp S Hk Ho) as (rz0 & h1 & h2 & E3 & P3 & L1 & L2). rewrite E3. cbn [obind]. clear E3.
  destruct HL as (Hm & Ha & _).
  assert (Pv := vals_pre vals _ HV LV).
  (* mul gates *)
  rewrite (for_each_ext' (pl_mul K l) _ (fun g (st : list simd * list bool) =>
      let (hg, ge) := st in
      let* x := aget hg (in0 K g) in let* hg := aset hg (in0 K g) (padd K x (tab ((fun g j => gm K ch alpha g * VF (in1 K g) j) g))) in
      let* ge := aset ge (in0 K g) true in Some (hg, ge))).
  2:{ intros g [h e] Hg. destruct (Hm g Hg) as (a & b & r & Eg & Hx & Hy & Hz). unfold in0, in1. rewrite Eg. cbn [aget nth_error nth obind].
      rewrite (gpre_get _ _ _ _ (pg_out K g) P3) by lia. cbn [obind]. rewrite (gpre_get _ _ _ _ b Pv) by lia. cbn [obind].
      unfold aget; destruct (nth_error h a); [|reflexivity]. cbn [obind]. rewrite pscale_tab.
      do 3 f_equal. apply tab_ext. intros j _. unfold gm. ring. }
  destruct (scatter_ok (pl_mul K l) (in0 K) (fun g j => gm K ch alpha g * VF (in1 K g) j) (2 ^ n) (2 ^ MI) (2 ^ MI)) with (hg := hg0) (ge := ge0) (H := fun (_ _ : nat) => 0 : K) (G := fun _ : nat => false)
    as (hg1 & ge1 & G1 & E4 & P4 & P5 & Z1); auto.
  { intros g Hg. destruct (Hm g Hg) as (a & b & r & Eg & Hx & _). unfold in0. now rewrite Eg. }
  { eapply gpre_ext; [exact P1|]. intros i _. apply pzero_tab. }
  rewrite E4. cbn [obind].
  (* add gates *)
  rewrite (for_each_ext' (pl_add K l) _ (fun g (st : list simd * list bool) =>
      let (hg, ge) := st in
      let* x := aget hg (in0 K g) in let* hg := aset hg (in0 K g) (padd K x (tab ((fun g (_ : nat) => gm K ch alpha g) g))) in
      let* ge := aset ge (in0 K g) true in Some (hg, ge))).
  2:{ intros g [h e] Hg. destruct (Ha g Hg) as (a & r & Eg & Hx & Hz). unfold in0. rewrite Eg. cbn [aget nth_error nth obind].
      rewrite (gpre_get _ _ _ _ (pg_out K g) P3) by lia. cbn [obind]. now rewrite pfrom_tab. }
  destruct (scatter_ok (pl_add K l) (in0 K) (fun g _ => gm K ch alpha g) (2 ^ n) (2 ^ MI) (2 ^ MI)) with (hg := hg1) (ge := ge1) (G := G1)
    (H := fun i j => 0 + fsum (map (fun g => gm K ch alpha g * VF (in1 K g) j * ind K (in0 K g) i) (pl_mul K l)))
    as (hg2 & ge2 & G2 & E5 & P6 & P7 & Z2); auto.
  { intros g Hg. destruct (Ha g Hg) as (a & r & Eg & Hx & _). unfold in0. now rewrite Eg. }
  rewrite E5. cbn [obind].
  exists rz0, hg2, ge2, h1, h2, G2. split; [reflexivity|]. split; [exact P3|]. split; [exact L1|]. split; [exact L2|].
  split; [|split; [exact P7|]].
  - eapply gpre_ext; [exact P6|]. intros i _. apply tab_ext. intros j _. unfold hg. ring.
  - intros i j Hi Hj Eg. rewrite <- (Z2 i j Hi Hj Eg). unfold hg. ring.
Qed.

Section Transcript.
Variable T : Type.
Variable append : K -> T -> T.
Variable sample : T -> option (K * T).

Lemma Q1_prod b : Q1 K simd_vars 0 l ch alpha (lanes vals) b = prodP K simd_vars 1 (eq_point (r_simd ch)) VF hgF b.
Proof.
  destruct C as [Z0 Z1 Rs Rm]. unfold Q1, prodP. cbn [Nat.pow]. rewrite sumn_1. destruct (r_mpi ch); [|discriminate].
  rewrite <- sumn_scale. apply sumn_ext. intros j _. rewrite eq_point_nil.
  change (mle (fun i => as_values (lanes vals) 0%nat j i) b) with (mle (as_values (lanes vals) 0%nat j) b).
  change (mle (fun i => hg K l ch alpha (lanes vals) 0%nat j i) b) with (mle (hg K l ch alpha (lanes vals) 0%nat j) b). ring.
Qed.
Lemma Q2_triple rx b : length b = simd_vars -> Q2 K 0 l ch alpha (lanes vals) rx b
  = tripleP K (eq_point (r_simd ch)) (fun j => mle (fun i => VF i j) rx) (fun j => mle (fun i => hgF i j) rx) b.
Proof.
  destruct C as [Z0 Z1 Rs Rm]. intros Lb. unfold Q2, tripleP. cbn [Nat.pow]. rewrite sumn_1. destruct (r_mpi ch); [|discriminate].
  rewrite eq_point_nil, eq_vec_ok by congruence. rewrite fmul_1_l. reflexivity.
Qed.
Lemma vmle_nil (V : values K) rx rs : vmle V rx rs [] = mle (fun j => mle (V 0%nat j) rx) rs.
Proof. unfold vmle. now rewrite mle_nil. Qed.

Lemma prove_layer_ok (is_out : bool) sp tp : sp_ok sp -> kept ch sp -> (is_out = true -> rz_1 ch = None) ->
  match honest_layer K simd_vars 0 T append sample l (lanes vals) ch alpha tp with
  | None => prove_layer K simd_vars T append sample l vals ch alpha is_out sp tp = None
  | Some (ch', tp') => exists sp', prove_layer K simd_vars T append sample l vals ch alpha is_out sp tp = Some (ch', sp', tp') /\ sp_ok sp' /\ kept ch' sp'
  end.
Proof.
  intros S Hk Ho. pose proof C as [Z0 Z1' Rs Rm].
  assert (HP : (2 ^ n <= 2 ^ MI)%nat) by (apply Nat.pow_le_mono_r; lia).
  assert (HNI : (2 ^ n <= half)%nat) by (unfold half; lia).
  assert (HNS : (2 ^ simd_vars <= half)%nat) by (unfold half, GkrProver.pack; lia).
  assert (Em : r_mpi ch = []) by (destruct (r_mpi ch); [reflexivity|discriminate]).
  unfold prove_layer.
  (* prepare_simd *)
  assert (X : exists eqs h1 h2, match is_out, alpha with
    | false, Some _ => Some (pp_eq_r_simd0 sp, pp_half1 sp, pp_half2 sp)
    | _, _ => eq_eval_at (r_simd ch) 1 (pp_eq_r_simd0 sp) (pp_half1 sp) (pp_half2 sp)
    end = Some (eqs, h1, h2) /\ gpre eqs pack pack (eq_point (r_simd ch)) /\ length h1 = half /\ length h2 = half).
  { assert (Y : exists eqs h1 h2, eq_eval_at (r_simd ch) 1 (pp_eq_r_simd0 sp) (pp_half1 sp) (pp_half2 sp) = Some (eqs, h1, h2) /\
       gpre eqs pack pack (eq_point (r_simd ch)) /\ length h1 = half /\ length h2 = half).
    { destruct (eq_eval_one (r_simd ch) (pp_eq_r_simd0 sp) (pp_half1 sp) (pp_half2 sp) pack half) as (e & s1 & s2 & E & P & L); try apply S; try (now rewrite Rs).
      exists e, s1, s2. rewrite Rs in P. auto. }
    destruct is_out; [exact Y|]. destruct alpha as [a|]; [|exact Y].
    exists (pp_eq_r_simd0 sp), (pp_half1 sp), (pp_half2 sp). split; [reflexivity|]. split; [|split; apply S].
    apply Hk. intros E. rewrite E in SA. discriminate. }
  destruct X as (eqs & h1 & h2 & E0 & Peq & L1 & L2). rewrite E0. cbn [obind]. cbv zeta. clear E0.
  match goal with |- context [prepare_x_vals K simd_vars l vals ch alpha is_out ?s] => set (sp1 := s) end.
  assert (S1 : sp_ok sp1) by (destruct S; split; cbn; auto; apply Peq).
  assert (Hk1 : kept ch sp1) by (intros E; split; [apply Hk; auto|exact Peq]).
  destruct (prepare_x_ok is_out sp1 S1 Hk1 Ho) as (rz0 & hg1 & ge1 & h3 & h4 & G & E1 & Prz & L3 & L4 & Phg & Pge & HZ). rewrite E1. cbn [obind].
  unfold honest_layer. cbv zeta.
  assert (Pv := vals_pre vals _ HV LV).
  (* rx *)
  rewrite (honest_ext K T append sample n 2 _ (prodP K simd_vars 1 (eq_point (r_simd ch)) VF hgF)) by (intros b _; apply Q1_prod).
  assert (R1 := xy_rounds_ok K simd_vars T append sample n vals eqs (eq_point (r_simd ch)) pack (2 ^ n) (2 ^ MI) (2 ^ MI) (2 ^ MI) None 1 (proj1 HI) Peq eq_refl HP
     n VF hgF G (pp_v_evals sp1) hg1 ge1 [] tp (le_n _)).
  rewrite Nat.sub_diag in R1. specialize (R1 Pv (so_v _ S1) Phg Pge HZ).
  destruct (honest_rounds K T append sample n 2 (prodP K simd_vars 1 (eq_point (r_simd ch)) VF hgF) tp) as [[rx tp1]|] eqn:Hr1; cbn [obind]; [|now rewrite R1].
  destruct R1 as (v2 & hg2 & ge2 & E2 & Pv2 & Phg2 & Lge2). rewrite E2. cbn [obind app].
  assert (Lx := honest_length _ _ _ _ _ _ _ _ _ _ Hr1).
  rewrite (gpre_get _ _ _ _ 0%nat Pv2), (gpre_get _ _ _ _ 0%nat Phg2) by lia. cbn [obind].
  (* r_simd *)
  rewrite (honest_ext K T append sample simd_vars 3 _ (tripleP K (eq_point (r_simd ch)) (fun j => mle (fun i => VF i j) rx) (fun j => mle (fun i => hgF i j) rx)))
    by (intros b Lb; now apply Q2_triple).
  assert (R2 := simd_rounds_ok K T append sample simd_vars simd_vars pack pack pack
    (eq_point (r_simd ch)) (fun j => mle (fun i => VF i j) rx) (fun j => mle (fun i => hgF i j) rx)
    eqs (tab (fun j => mle (fun i => VF i j) rx)) (tab (fun j => mle (fun i => hgF i j) rx)) [] tp1 (le_n _) Peq (tab_pre _ _ _) (tab_pre _ _ _)).
  destruct (honest_rounds K T append sample simd_vars 3 _ tp1) as [[rs tp2]|] eqn:Hr2; cbn [obind]; [|now rewrite R2].
  destruct R2 as (eqs2 & sv2 & shg2 & E3 & Peq2 & Psv2 & _). rewrite E3. cbn [obind app].
  assert (Ls := honest_length _ _ _ _ _ _ _ _ _ _ Hr2).
  rewrite (gpre_get _ _ _ _ 0%nat Psv2) by lia. cbn [obind GkrHonest.honest_rounds].
  assert (Evx : mle (fun j => mle (fun i => VF i j) rx) rs = vmle (as_values (lanes vals)) rx rs []) by now rewrite vmle_nil.
  rewrite Evx. set (vx := vmle (as_values (lanes vals)) rx rs []).
  destruct (negb (empty (pl_mul K l))) eqn:Emul.
  2:{ eexists. split; [reflexivity|]. split.
      - split; cbn [pp_v_evals pp_hg_evals pp_eq_rx pp_eq_rz0 pp_eq_r_simd0 pp_half1 pp_half2 pp_gate_exists]; auto; try apply Pv2; try apply Phg2; try apply Prz; try apply Peq2. apply S.
      - intros E. now elim E. }
  (* prepare_y_vals *)
  unfold prepare_y_vals. rewrite Lx.
  destruct (fill_ok (2 ^ n) (pzero K simd_vars) hg2 (2 ^ MI) (proj1 Phg2) HP) as (hg3 & E4 & P4). rewrite E4. cbn [obind].
  destruct (fill_ok (2 ^ n) false ge2 (2 ^ MI) Lge2 HP) as (ge3 & E5 & P5). rewrite E5. cbn [obind].
  rewrite (gpre_get _ _ _ _ 0%nat Peq2) by lia. cbn [obind]. cbv zeta.
  destruct (eq_eval_one rx (pp_eq_rx sp1) h3 h4 (2 ^ MI) half) as (eqx & h5 & h6 & E6 & P6 & L5 & L6); auto; try apply S1; try (now rewrite Lx).
  rewrite E6. cbn [obind]. rewrite Lx in P6.
  destruct (eq_eval_one rs eqs2 h5 h6 pack half) as (eqs3 & h7 & h8 & E7 & P7 & L7 & L8); auto; try apply Peq2; try (now rewrite Ls).
  rewrite E7. cbn [obind]. rewrite Ls in P7. change (2 ^ simd_vars)%nat with pack in P7.
  pose proof HL as (Hm & _).
  rewrite (for_each_ext' (pl_mul K l) _ (fun g (st : list simd * list bool) =>
      let (hg, ge) := st in
      let* x := aget hg (in1 K g) in let* hg := aset hg (in1 K g) (padd K x (tab ((fun g (_ : nat) => gm K ch alpha g * eq_point rx (in0 K g)) g))) in
      let* ge := aset ge (in1 K g) true in Some (hg, ge))).
  2:{ intros g [h e] Hg. destruct (Hm g Hg) as (a & b & r & Eg & Hx & Hy & Hz). unfold in0, in1. rewrite Eg. cbn [aget nth_error nth obind].
      rewrite (gpre_get _ _ _ _ (pg_out K g) Prz) by lia. cbn [obind]. rewrite (gpre_get _ _ _ _ a P6) by lia. cbn [obind].
      unfold aget; destruct (nth_error h b); [|reflexivity]. cbn [obind]. rewrite pfrom_tab.
      do 3 f_equal. apply tab_ext. intros j _. unfold gm. ring. }
  destruct (scatter_ok (pl_mul K l) (in1 K) (fun g _ => gm K ch alpha g * eq_point rx (in0 K g)) (2 ^ n) (2 ^ MI) (2 ^ MI)) with (hg := hg3) (ge := ge3) (H := fun (_ _ : nat) => 0 : K) (G := fun _ : nat => false)
    as (hg4 & ge4 & G4 & E8 & P8 & P9 & Z4); auto.
  { intros g Hg. destruct (Hm g Hg) as (a & b & r & Eg & _ & Hy & _). unfold in1. now rewrite Eg. }
  { eapply gpre_ext; [exact P4|]. intros i _. apply pzero_tab. }
  rewrite E8. cbn [obind].
  set (c := eq_vec (r_mpi ch) [] * mle (eq_point (r_simd ch)) rs * vx).
  assert (P8' : gpre hg4 (2 ^ MI) (2 ^ n) (fun i => tab ((fun i _ => hy K l ch alpha rx i) i))).
  { eapply gpre_ext; [exact P8|]. intros i _. apply tab_ext. intros j _. unfold hy. ring. }
  assert (Z4' : forall i j : nat, (i < 2 ^ n)%nat -> (j < pack)%nat -> G4 i = false -> (fun i (_ : nat) => hy K l ch alpha rx i) i j = 0).
  { intros i j Hi Hj Eg. rewrite <- (Z4 i j Hi Hj Eg). unfold hy. ring. }
  (* ry *)
  rewrite (honest_ext K T append sample n 2 _ (prodP K simd_vars c (eq_point rs) VF (fun i _ => hy K l ch alpha rx i))).
  2:{ intros b Lb. unfold Q4, prodP. rewrite vb_mle, vmle_nil. unfold c. rewrite Em, eq_vec_ok by congruence.
      rewrite (sumn_ext K _ _ (fun j => mle (as_values (lanes vals) 0%nat j) b * eq_point rs j * mle (hy K l ch alpha rx) b)).
      - rewrite sumn_scale_r. unfold mle at 2. rewrite Ls. unfold GkrProver.pack. ring.
      - intros j _. cbv beta. change (mle (fun i => as_values (lanes vals) 0%nat j i) b) with (mle (as_values (lanes vals) 0%nat j) b).
        change (mle (fun i => hy K l ch alpha rx i) b) with (mle (hy K l ch alpha rx) b). ring. }
  assert (R3 := xy_rounds_ok K simd_vars T append sample n vals eqs3 (eq_point rs) pack (2 ^ n) (2 ^ MI) (2 ^ MI) (2 ^ MI) (Some c) c (proj1 HI) P7 eq_refl HP
     n VF (fun i _ => hy K l ch alpha rx i) G4 v2 hg4 ge4 [] (emit K T append vx tp2) (le_n _)).
  rewrite Nat.sub_diag in R3. specialize (R3 Pv (proj1 Pv2) P8' P9 Z4').
  destruct (honest_rounds K T append sample n 2 (prodP K simd_vars c (eq_point rs) VF (fun i _ => hy K l ch alpha rx i)) (emit K T append vx tp2)) as [[ry tp3]|] eqn:Hr3;
    cbn [obind]; [|now rewrite R3].
  destruct R3 as (v5 & hg5 & ge5 & E9 & Pv5 & Phg5 & Lge5). rewrite E9. cbn [obind app].
  rewrite (gpre_get _ _ _ _ 0%nat Pv5) by lia. cbn [obind]. rewrite (unpack_tab K simd_vars _ _ _ _ P7).
  assert (Evy : sumn pack (fun j => mle (fun i => VF i j) ry * eq_point rs j) = vmle (as_values (lanes vals)) ry rs []).
  { rewrite vmle_nil. unfold mle at 2. rewrite Ls. reflexivity. }
  rewrite Evy. eexists. split; [reflexivity|]. split.
  - split; cbn [pp_v_evals pp_hg_evals pp_eq_rx pp_eq_rz0 pp_eq_r_simd0 pp_half1 pp_half2 pp_gate_exists]; auto; try apply Pv5; try apply Phg5; try apply Prz; try apply P6. apply P7.
  - intros _. cbn [rz_0 r_simd pp_eq_rx pp_eq_r_simd0]. rewrite Lx. auto.
Qed.
End Transcript.
End Layer.
End Proofs.
