(** The honest GKR prover without scratch tables: every message is read off the polynomials of
    Proofs/GkrLayer.v.  The verifier accepts it. *)
From Coq Require Import List Bool Arith Lia Ring Field.
From Verif Require Import Base.Field Base.Array Base.Poly Spec.Multilinear Spec.Sumcheck Spec.Gkr Model.Polynomials Model.Layered Model.Gkr Model.GkrProver
  Proofs.Multilinear Proofs.Polynomials Proofs.Sumcheck Proofs.GkrClean Proofs.GkrVerify Proofs.GkrAlg Proofs.GkrLayer Proofs.GkrSound.
Import ListNotations.

Section Proofs.
Variable K : field.
Add Field Kf : (fth K).
Local Open Scope fld_scope.
Variables simd_vars mpi_vars : nat.
Local Notation player := (player K).
Local Notation npub pub := (length pub / 2 ^ mpi_vars)%nat.
Variable T : Type.
Variable append : K -> T -> T.
Variable sample : T -> option (K * T).
Local Notation tr := (tr K T).
Local Notation emit := (emit K T append).
Local Notation transcript_io := (transcript_io K T append sample).
Local Notation verify_rounds := (verify_rounds K T append sample).
Local Notation clean_layer := (clean_layer K simd_vars mpi_vars T append sample).
Local Notation clean_layers := (clean_layers K simd_vars mpi_vars T append sample).
Local Notation ch_ok := (ch_ok K simd_vars mpi_vars).

(** ** Rounds *)
Fixpoint honest_rounds (n d : nat) (P : list K -> K) (tp : tr) : option (list K * tr) :=
  match n with
  | O => Some ([], tp)
  | S n =>
    let* (r, tp) := transcript_io (map (fun i => cube_sum n (fun b => P (f_of_nat i :: b))) (seq 0 (S d))) tp in
    let* (rs, tp) := honest_rounds n d (fun b => P (r :: b)) tp in Some (r :: rs, tp)
  end.
Lemma honest_ext n d : forall P Q tp, (forall b, length b = n -> P b = Q b) -> honest_rounds n d P tp = honest_rounds n d Q tp.
Proof.
  induction n as [|n IH]; intros P Q tp H; cbn [honest_rounds]; [reflexivity|].
  rewrite (map_ext _ (fun i => cube_sum n (fun b => Q (f_of_nat i :: b)))).
  2:{ intros i. apply cube_sum_ext. intros b Lb. apply H. cbn. now rewrite Lb. }
  destruct (transcript_io _ tp) as [[r tp1]|]; [|reflexivity]. cbn [obind].
  rewrite (IH (fun b => P (r :: b)) (fun b => Q (r :: b))) by (intros b Lb; apply H; cbn; now rewrite Lb). reflexivity.
Qed.
Lemma honest_length n d : forall P tp rs tp', honest_rounds n d P tp = Some (rs, tp') -> length rs = n.
Proof.
  induction n as [|n IH]; intros P tp rs tp' E; cbn [honest_rounds] in E; [now injection E as <- _|].
  destruct (transcript_io _ tp) as [[r tp1]|]; [|discriminate]. cbn [obind] in E.
  destruct (honest_rounds n d (fun b => P (r :: b)) tp1) as [[rs1 tp2]|] eqn:E1; [|discriminate]. cbn [obind] in E.
  injection E as <- _. cbn. f_equal. eauto.
Qed.

Definition absorb (ms : list K) (t : T) : T := fold_left (fun t x => append x t) ms t.
Lemma emits ms : forall tp, fold_left (fun tp p => emit p tp) ms tp = (absorb ms (fst tp), snd tp ++ ms).
Proof.
  induction ms as [|m ms IH]; intros [t p]; cbn [fold_left absorb fst snd]; [now rewrite app_nil_r|].
  rewrite IH. cbn [emit fst snd]. unfold GkrProver.emit. cbn [fst snd]. rewrite <- app_assoc. reflexivity.
Qed.
Lemma io_inv ms tp r tp' : transcript_io ms tp = Some (r, tp') ->
  exists t', sample (absorb ms (fst tp)) = Some (r, t') /\ tp' = (t', snd tp ++ ms).
Proof.
  unfold GkrProver.transcript_io. rewrite emits. cbn [fst snd].
  destruct (sample (absorb ms (fst tp))) as [[r0 t0]|]; [|discriminate]. cbn [obind]. intros E. injection E as <- <-. eauto.
Qed.
Lemma read_honest ms : forall rest t, read_message K T append (length ms) (map Some ms ++ rest) t = (ms, true, rest, absorb ms t).
Proof.
  induction ms as [|m ms IH]; intros rest t; cbn [length map app read_message try_deserialize_field absorb fold_left]; [reflexivity|].
  rewrite IH. reflexivity.
Qed.

Lemma of_nat_inj lag i j : new_lagrange K = Some lag -> (i <= 3)%nat -> (j <= 3)%nat -> (f_of_nat i : K) = f_of_nat j -> i = j.
Proof.
  intros El Hi Hj E. destruct (new_lagrange_val K lag El) as (H2 & H3 & _).
  assert (N1 := f1_neq_0 K).
  assert (X : forall a b, f_of_nat (K := K) a = f_of_nat b -> (f_of_nat a - f_of_nat b : K) = 0) by (intros a b ->; ring).
  apply X in E. clear X.
  assert (P : forall a : K, a <> 0 -> a = 0 \/ - a = 0 -> False) by (intros a Ha [H|H]; [auto|now apply (nz_opp K a Ha)]).
  destruct i as [|[|[|[|i]]]]; try lia; destruct j as [|[|[|[|j]]]]; try lia; try reflexivity; cbn [f_of_nat] in E; exfalso.
  all: first [ apply (P 1 N1); first [left; rewrite <- E; ring | right; rewrite <- E; ring]
             | apply (P (1 + 1) H2); first [left; rewrite <- E; ring | right; rewrite <- E; ring]
             | apply (P (1 + 1 + 1) H3); first [left; rewrite <- E; ring | right; rewrite <- E; ring] ].
Qed.

Lemma honest_accepted lag d : new_lagrange K = Some lag -> (d = 2 \/ d = 3)%nat -> forall n P tp rs tp', deg K d n P ->
  honest_rounds n d P tp = Some (rs, tp') -> exists new, snd tp' = snd tp ++ new /\
  forall rs0 rest, verify_rounds lag n d true (cube_sum n P) rs0 (map Some new ++ rest) (fst tp) = Some (true, P rs, rs0 ++ rs, rest, fst tp').
Proof.
  intros El Hd. induction n as [|n IH]; intros P tp rs tp' HP E; cbn [honest_rounds] in E.
  - injection E as <- <-. exists []. rewrite app_nil_r. split; [reflexivity|]. intros rs0 rest. cbn. now rewrite app_nil_r.
  - set (h := fun x => cube_sum n (fun b => P (x :: b))).
    set (ms := map (fun i => h (f_of_nat i)) (seq 0 (S d))).
    change (map (fun i => cube_sum n (fun b => P (f_of_nat i :: b))) (seq 0 (S d))) with ms in E.
    destruct (transcript_io ms tp) as [[r tp1]|] eqn:Eio; [|discriminate]. cbn [obind] in E.
    destruct (honest_rounds n d (fun b => P (r :: b)) tp1) as [[rs1 tp2]|] eqn:E1; [|discriminate]. cbn [obind] in E. injection E as <- <-.
    destruct (io_inv _ _ _ _ Eio) as (t1 & Es & ->).
    assert (HP' : deg K d n (fun b => P (r :: b))) by (intros pre post L; apply (HP (r :: pre) post); cbn; now rewrite L).
    destruct (IH _ _ _ _ HP' E1) as (new & En & Hv). cbn [fst snd] in En, Hv.
    exists (ms ++ new). split; [now rewrite app_assoc|]. intros rs0 rest.
    assert (Lm : length ms = (d + 1)%nat) by (unfold ms; rewrite map_length, seq_length; lia).
    destruct (step_interp K lag d ms El Hd Lm) as (q & Hq & Hqi & Hstep).
    assert (Hh : polyfn d h) by now apply deg_head.
    assert (Ei : forall i, (i <= d)%nat -> q (f_of_nat i) = h (f_of_nat i)).
    { intros i Hi. rewrite Hqi by auto. unfold ms. rewrite (nth_indep _ 0 (h (f_of_nat 0))) by (rewrite map_length, seq_length; lia).
      rewrite (map_nth (fun i => h (f_of_nat i))). rewrite seq_nth by lia. reflexivity. }
    assert (Eq : forall x, q x = h x).
    { intros x. destruct (feq_dec (q x) (h x)) as [|N]; auto. exfalso.
      assert (Hc := polyfn_agree K d q h x (map f_of_nat (seq 0 (S d))) Hq Hh N).
      rewrite map_length, seq_length in Hc. apply (Nat.nle_succ_diag_l d). apply Hc.
      - assert (Hnd : forall l, NoDup l -> (forall i, In i l -> (i <= 3)%nat) -> NoDup (map (f_of_nat (K := K)) l)).
        { induction l as [|a l IHl]; intros Hn Hb; cbn; constructor.
          - intros Hin. apply in_map_iff in Hin as (b & Eb & Hb'). apply (of_nat_inj lag) in Eb; auto with datatypes. subst. now inversion Hn.
          - inversion Hn; subst. apply IHl; auto with datatypes. }
        apply Hnd; [apply seq_NoDup|]. intros i Hi. apply in_seq in Hi. lia.
      - intros y Hy. apply in_map_iff in Hy as (i & <- & Hi). apply in_seq in Hi. apply Ei. lia. }
    cbn [Gkr.verify_rounds]. rewrite step_eq. rewrite map_app, <- app_assoc, <- Lm, read_honest, Es. cbn [obind].
    rewrite Hstep. cbn [obind].
    replace (feqb (q 0 + q 1) (cube_sum (S n) P)) with true.
    2:{ symmetry. apply feqb_eq. rewrite !Eq. reflexivity. }
    cbn [andb]. rewrite Eq. unfold h. rewrite Hv, <- app_assoc. reflexivity.
Qed.

(** ** Layers *)
Definition honest_layer (l : player) (vals : nat -> nat -> list K) (ch : dual_challenge K) (alpha : option K) (tp : tr)
  : option (dual_challenge K * tr) :=
  let V := as_values vals in
  let* (rx, tp) := honest_rounds (pl_ivars K l) 2 (Q1 K simd_vars mpi_vars l ch alpha vals) tp in
  let* (rs, tp) := honest_rounds simd_vars 3 (Q2 K mpi_vars l ch alpha vals rx) tp in
  let* (rm, tp) := honest_rounds mpi_vars 3 (Q3 K l ch alpha vals rx rs) tp in
  let vx := vmle V rx rs rm in
  let tp := emit vx tp in
  if negb (empty (pl_mul K l)) then
    let* (ry, tp) := honest_rounds (pl_ivars K l) 2 (Q4 K l ch alpha vals vx rx rs rm) tp in
    Some ({| rz_0 := rx; rz_1 := Some ry; r_simd := rs; r_mpi := rm |}, emit (vmle V ry rs rm) tp)
  else Some ({| rz_0 := rx; rz_1 := None; r_simd := rs; r_mpi := rm |}, tp).

Lemma honest_layer_accepted lag l ch alpha pub vals outs v0 v1 tp ch' tp' : new_lagrange K = Some lag ->
  layer_ok (npub pub) l -> ch_ok (pl_ovars K l) ch ->
  (forall k j, (k < 2 ^ mpi_vars)%nat -> (j < 2 ^ simd_vars)%nat -> eval_layer K l (vals k j) (lane_pub mpi_vars pub k j) = Some (outs k j)) ->
  claimed K v0 v1 alpha = claim_value K (as_values outs) ch alpha ->
  honest_layer l vals ch alpha tp = Some (ch', tp') ->
  ch_ok (pl_ivars K l) ch' /\ exists new, snd tp' = snd tp ++ new /\
  forall rest, clean_layer lag l pub ch v0 v1 alpha (map Some new ++ rest) (fst tp)
    = Some (true, ch', vmle (as_values vals) (rz_0 ch') (r_simd ch') (r_mpi ch'),
            option_map (fun z => vmle (as_values vals) z (r_simd ch') (r_mpi ch')) (rz_1 ch'), rest, fst tp').
Proof.
  intros El HL C HE Hc E. unfold honest_layer in E. set (V := as_values vals) in *.
  destruct (honest_rounds (pl_ivars K l) 2 (Q1 K simd_vars mpi_vars l ch alpha vals) tp) as [[rx tp1]|] eqn:E1; [|discriminate]. cbn [obind] in E.
  destruct (honest_rounds simd_vars 3 (Q2 K mpi_vars l ch alpha vals rx) tp1) as [[rs tp2]|] eqn:E2; [|discriminate]. cbn [obind] in E.
  destruct (honest_rounds mpi_vars 3 (Q3 K l ch alpha vals rx rs) tp2) as [[rm tp3]|] eqn:E3; [|discriminate]. cbn [obind] in E.
  assert (L1 := honest_length _ _ _ _ _ _ E1). assert (L2 := honest_length _ _ _ _ _ _ E2). assert (L3 := honest_length _ _ _ _ _ _ E3).
  apply (honest_accepted lag 2 El (or_introl eq_refl)) in E1 as (n1 & S1 & H1); [|apply deg_of, D1].
  apply (honest_accepted lag 3 El (or_intror eq_refl)) in E2 as (n2 & S2 & H2); [|apply deg_of, (D2 K simd_vars mpi_vars l ch alpha vals C)].
  apply (honest_accepted lag 3 El (or_intror eq_refl)) in E3 as (n3 & S3 & H3); [|apply deg_of, (D3 K simd_vars mpi_vars l ch alpha vals C)].
  rewrite <- (A1 K simd_vars mpi_vars l ch alpha pub vals outs HL C HE), <- Hc in H1.
  unfold GkrClean.clean_layer.
  change (match v1, alpha with Some v1, Some a => v0 + v1 * a | _, _ => v0 end) with (claimed K v0 v1 alpha).
  set (vx := vmle V rx rs rm) in *.
  destruct (negb (empty (pl_mul K l))) eqn:Em.
  - destruct (honest_rounds (pl_ivars K l) 2 (Q4 K l ch alpha vals vx rx rs rm) (emit vx tp3)) as [[ry tp4]|] eqn:E4; [|discriminate]. cbn [obind] in E.
    injection E as <- <-. cbn [rz_0 rz_1 r_simd r_mpi option_map].
    assert (L4 := honest_length _ _ _ _ _ _ E4).
    apply (honest_accepted lag 2 El (or_introl eq_refl)) in E4 as (n4 & S4 & H4); [|apply deg_of, D4].
    split; [split; cbn; auto; intros z Ez; injection Ez as <-; auto|].
    exists (n1 ++ n2 ++ n3 ++ [vx] ++ n4 ++ [vmle V ry rs rm]). split.
    { cbn [snd GkrProver.emit] in *. unfold GkrProver.emit in *. cbn [snd] in *. rewrite S4, S3, S2, S1, <- !app_assoc. reflexivity. }
    intros rest. rewrite !map_app, <- !app_assoc. rewrite H1. cbn [obind app].
    rewrite (A2 K simd_vars mpi_vars l ch alpha vals C). rewrite H2. cbn [obind app].
    rewrite (A3 K simd_vars mpi_vars l ch alpha vals C). rewrite H3. cbn [obind app map try_deserialize_field andb].
    assert (HA := A4 K mpi_vars l ch alpha pub vals HL rx rs rm L1). fold V in HA. fold vx in HA. rewrite HA. clear HA.
    unfold GkrProver.emit in H4. cbn [fst] in H4. rewrite H4. cbn [obind app map try_deserialize_field andb].
    rewrite (A5 K mpi_vars l ch alpha pub vals HL vx rx rs rm ry L4).
    replace (feqb _ _) with true by (symmetry; apply feqb_eq; reflexivity). reflexivity.
  - injection E as <- <-. cbn [rz_0 rz_1 r_simd r_mpi option_map].
    assert (Emul : pl_mul K l = []) by (destruct (pl_mul K l); [reflexivity|discriminate]).
    split; [split; cbn; auto; discriminate|].
    exists (n1 ++ n2 ++ n3 ++ [vx]). split.
    { unfold GkrProver.emit in *. cbn [snd] in *. rewrite S3, S2, S1, <- !app_assoc. reflexivity. }
    intros rest. rewrite !map_app, <- !app_assoc. rewrite H1. cbn [obind app].
    rewrite (A2 K simd_vars mpi_vars l ch alpha vals C). rewrite H2. cbn [obind app].
    rewrite (A3 K simd_vars mpi_vars l ch alpha vals C). rewrite H3. cbn [obind app map try_deserialize_field andb].
    assert (HA := A6 K mpi_vars l ch alpha pub vals HL rx rs rm Emul L1). fold V in HA. fold vx in HA. rewrite HA. clear HA.
    replace (feqb 0 0) with true by (symmetry; apply feqb_eq; reflexivity). reflexivity.
Qed.

(** The layers last to first, each with its inputs. *)
Fixpoint honest_layers (rev_layers : list (player * (nat -> nat -> list K))) (ch : dual_challenge K) (alpha : option K) (tp : tr)
  : option (dual_challenge K * tr) :=
  match rev_layers with
  | [] => Some (ch, tp)
  | (l, vals) :: rest =>
    let* (ch, tp) := honest_layer l vals ch alpha tp in
    let* (alpha, t) := sample_alpha K T sample ch (fst tp) in
    honest_layers rest ch alpha (t, snd tp)
  end.
(** the first layer's inputs are [inp], and each layer computes the next one's inputs *)
Fixpoint evaluated (pub : list (list K)) (inp : nat -> nat -> list K) (rev_layers : list (player * (nat -> nat -> list K))) (outs : nat -> nat -> list K) : Prop :=
  match rev_layers with
  | [] => forall k j, (k < 2 ^ mpi_vars)%nat -> (j < 2 ^ simd_vars)%nat -> outs k j = inp k j
  | (l, vals) :: rest => evaluated pub inp rest vals /\
      forall k j, (k < 2 ^ mpi_vars)%nat -> (j < 2 ^ simd_vars)%nat -> eval_layer K l (vals k j) (lane_pub mpi_vars pub k j) = Some (outs k j)
  end.
Lemma honest_layers_accepted lag pub inp : new_lagrange K = Some lag -> forall ls n outs ch v0 v1 alpha tp ch' tp',
  rchain K n (map fst ls) -> (forall l, In l (map fst ls) -> layer_ok (npub pub) l) -> evaluated pub inp ls outs -> ch_ok n ch ->
  same_none (rz_1 ch) alpha = true ->
  v0 = vmle (as_values outs) (rz_0 ch) (r_simd ch) (r_mpi ch) ->
  v1 = option_map (fun z => vmle (as_values outs) z (r_simd ch) (r_mpi ch)) (rz_1 ch) ->
  honest_layers ls ch alpha tp = Some (ch', tp') ->
  exists new, snd tp' = snd tp ++ new /\
  forall rest, exists v0' v1', clean_layers lag (map fst ls) pub true ch v0 v1 alpha (map Some new ++ rest) (fst tp) = Some (true, ch', v0', v1', rest, fst tp') /\
    claims_hold inp ch' v0' v1' = true.
Proof.
  intros El. induction ls as [|[l vals] ls IH]; intros n outs ch v0 v1 alpha tp ch' tp' HC HL HE C S2 Hv0 Hv1 E; cbn [honest_layers map fst] in *.
  - injection E as <- <-. exists []. rewrite app_nil_r. split; [reflexivity|]. intros rest. exists v0, v1. split; [reflexivity|].
    assert (X : forall z, vmle (as_values outs) z (r_simd ch) (r_mpi ch) = vmle (as_values inp) z (r_simd ch) (r_mpi ch)).
    { intros z. apply (vmle_ext K simd_vars mpi_vars); try apply C. intros k jj Hk Hj. unfold as_values. now rewrite HE. }
    unfold claims_hold. subst v0 v1. rewrite X. replace (feqb _ _) with true by (symmetry; now apply feqb_eq).
    destruct (rz_1 ch); cbn; auto. apply feqb_eq. apply X.
  - destruct HC as (En & HC). destruct HE as (HV & HE). rewrite <- En in C. clear n En.
    destruct (honest_layer l vals ch alpha tp) as [[ch1 tp1]|] eqn:E1; [|discriminate]. cbn [obind] in E.
    destruct (sample_alpha K T sample ch1 (fst tp1)) as [[a t1]|] eqn:Ea; [|discriminate]. cbn [obind] in E.
    destruct (honest_layer_accepted lag l ch alpha pub vals outs v0 v1 tp ch1 tp1) as (C1 & n1 & S1 & H1); auto with datatypes.
    { subst v0 v1. unfold claimed, claim_value. destruct (rz_1 ch), alpha; cbn in *; try discriminate; auto; ring. }
    destruct (IH (pl_ivars K l) vals ch1 (vmle (as_values vals) (rz_0 ch1) (r_simd ch1) (r_mpi ch1))
      (option_map (fun z => vmle (as_values vals) z (r_simd ch1) (r_mpi ch1)) (rz_1 ch1)) a (t1, snd tp1) ch' tp') as (n2 & S3 & H2); auto with datatypes.
    { now apply alpha_same in Ea. }
    exists (n1 ++ n2). cbn [fst snd] in *. split; [rewrite S3, S1; now rewrite app_assoc|].
    intros rest. destruct (H2 rest) as (v0' & v1' & H2' & Hc). exists v0', v1'. split; [|exact Hc].
    cbn [GkrClean.clean_layers]. rewrite map_app, <- app_assoc, H1. cbn [obind]. rewrite Ea. cbn [obind andb]. exact H2'.
Qed.
End Proofs.
