(** The witness of one layer satisfies the layer's part of the circuit. *)
From Coq Require Import ZArith Znumtheory List Bool Lia String ArithRing.
From Verif Require Import Base.Array Base.Machine Spec.Numbers Spec.Remainder Spec.RemainderCircuit Model.Remainder Model.RemainderWitness.
From Verif Require Import Proofs.RemainderArith Proofs.RemainderBuild Proofs.RemainderPublic Proofs.RemainderSound Proofs.RemainderLayers
  Proofs.RemainderImages Proofs.RemainderConv Proofs.RemainderNorm Proofs.RemainderHonest Proofs.RemainderHonestTaps.
Import ListNotations.
Local Open Scope string_scope.
Local Open Scope Z_scope.

Lemma shred_eval env s nv v : env s = Some v -> List.length v = (2 ^ nv)%nat -> eval_node env (NShred s nv) = Some v.
Proof. intros E L. cbn. rewrite E. cbn. now rewrite L, Nat.eqb_refl. Qed.

Lemma nmat_eval env a ra ca b rb cb va vb : eval_node env a = Some va -> eval_node env b = Some vb ->
  List.length va = (2 ^ (ra + ca))%nat -> List.length vb = (2 ^ (rb + cb))%nat -> ca = rb ->
  eval_node env (NMat a ra ca b rb cb) =
  Some (map (fun ij => zsum (map (fun k => at_ va (ij / 2 ^ cb * 2 ^ ca + k) * at_ vb (k * 2 ^ cb + ij mod 2 ^ cb)) (seq 0 (2 ^ ca))))
            (seq 0 (2 ^ (ra + cb)))).
Proof. intros E F L M ->. cbn [eval_node]. rewrite E, F. cbn [obind]. now rewrite L, M, !Nat.eqb_refl. Qed.

Lemma matmul_inv a ar ac b bc v : padded_matmul a ar ac b bc = Some v ->
  v = map (fun ij => zsum (map (fun k => at_ a (ij / bc * ac + k) * at_ b (k * bc + ij mod bc)) (seq 0 ac))) (seq 0 (ar * bc)) /\ Forall i64 v.
Proof. unfold padded_matmul. intros H. inv_step H. now apply omap_i64 in H. Qed.

Lemma gemm_public_inv l w bias k n : gemm_public l = Some (w, bias, k, n) ->
  exists wn wt, aget (l_inputs l) 1 = Some wn /\ hget (l_weights l) wn = Some wt /\ gemm_dims l (fst wt) = Some (k, n) /\
    List.length w = (pow2_for k * pow2_for n)%nat /\ List.length bias = pow2_for n.
Proof.
  unfold gemm_public. intros H. inv_step H. inv_step H. inv_step H. destruct a1 as (k', n'). inv_step H. inv_step H. inv_step H. inv_step H.
  injection H as <- <- <- <-. exists a, a0. do 3 (split; [assumption|]). apply pad_matrix_spec in E5. split; [tauto|].
  unfold broadcast_bias. now rewrite map_length, seq_length.
Qed.

Lemma conv_public_inv l lay w bias g : conv_public l lay = Some (w, bias, g) ->
  exists wn wt, aget (l_inputs l) 1 = Some wn /\ hget (l_weights l) wn = Some wt /\ conv_geometry l (fst wt) lay = Some g /\
    List.length w = (pow2_for (g_patch g) * pow2_for (g_cout g))%nat /\
    List.length bias = (pow2_for (g_patches g) * pow2_for (g_cout g))%nat.
Proof.
  unfold conv_public. intros H. inv_step H. inv_step H. inv_step H. inv_step H. inv_step H.
  injection H as <- <- <-. exists a, a0. do 3 (split; [assumption|]). apply pad_matrix_spec in E3. split; [tauto|].
  now rewrite map_length, seq_length.
Qed.

Lemma bn_public_length l lay sz mul add : bn_public l lay sz = Some (mul, add) -> List.length mul = pow2_for sz /\ List.length add = pow2_for sz.
Proof.
  unfold bn_public. intros H. inv_step H. inv_step H. inv_step H. inv_step H. inv_step H. inv_step H. injection H as <- <-.
  unfold bn_broadcast. now rewrite !map_length, !seq_length.
Qed.

Lemma public_obs o l s : public_layer (obs o l) s = public_layer l s.
Proof. unfold obs. destruct (hget o (l_name l)); reflexivity. Qed.

Lemma sub_sub_holds p env a b c va vb vc : eval_sector env a = Some va -> eval_sector env b = Some vb -> eval_sector env c = Some vc ->
  zip_with Z.sub va vb = Some vc -> holds p env (Zero (ESub (ESub a b) c)) = true.
Proof.
  intros Ea Eb Ec Ez. destruct (zip_with_inv _ _ _ _ Ez) as (L1 & L2 & A).
  destruct (zip_with_some Z.sub vc vc eq_refl) as (d & Ed). destruct (zip_with_inv _ _ _ _ Ed) as (_ & L3 & A3).
  apply holds_zero_intro with d.
  - cbn [eval_sector]. rewrite Ea, Eb, Ec. cbn [obind]. rewrite Ez. exact Ed.
  - intros i Hi. rewrite A3 by lia. lia.
Qed.

Section Layer.
Variables (p : Z) (W : list (shred * list Z)) (man : manifest) (T : list nat).

Definition wenv (s : shred) : option (list Z) := match sget man s with Some _ => sget W s | None => None end.

Definition tracked (ws : wstate) (b : bstate) (s : pstate) : Prop :=
  forall x, match hget (w_tensors ws) x with
            | Some v => Forall i64 v /\ exists n nv, hget (b_nodes b) x = Some n /\ hget (b_nv b) x = Some nv /\
                hget (ps_sizes s) x = Some (2 ^ nv)%nat /\ List.length v = (2 ^ nv)%nat /\ eval_node wenv n = Some v
            | None => hget (b_nodes b) x = None /\ hget (ps_sizes s) x = None end.

Definition same_layouts (ws : wstate) (b : bstate) (s : pstate) : Prop :=
  forall x, hget (w_layouts ws) x = hget (b_layouts b) x /\ hget (ps_layouts s) x = hget (b_layouts b) x.

Definition lows (v : list Z) : list Z := map (fun y => Z.rem y (2 ^ Z.of_nat CHUNK_BITS)) v.
Definition highs (v : list Z) : list Z := map (fun y => Z.quot y (2 ^ Z.of_nat CHUNK_BITS)) v.

Definition range_ok (rc : shred * node * nat * nat) : Prop :=
  let '(s, n, t, nv) := rc in
  exists v ts, eval_node wenv n = Some v /\ List.length v = (2 ^ nv)%nat /\ (forall y, In y v -> in_width t y) /\
    width_tables t = Some ts /\ incl ts T /\
    ((CHUNK_BITS < t)%nat -> sget W (SChunk false s) = Some (lows v) /\ sget W (SChunk true s) = Some (highs v)).

Record step (l : layer) (ws : wstate) (b : bstate) (s : pstate) (ws' : wstate) (b' : bstate) (s' : pstate) : Prop := {
  st_tracked : tracked ws' b' s';
  st_layouts : l_op l <> Reshape -> same_layouts ws b s -> same_layouts ws' b' s';
  st_checks : forall c, In c (b_checks b') -> In c (b_checks b) \/ holds p wenv c = true;
  st_ranges : forall rc, In rc (b_ranges b') -> In rc (b_ranges b) \/ range_ok rc;
  st_public : forall t nv, In (t, (nv, Public)) (b_manifest b') ->
    In (t, (nv, Public)) (b_manifest b) \/ exists v, sget (ps_shreds s') t = Some v /\ sget W t = Some v
}.

Lemma tracked_put ws b s ws' b' s' outs n nv v : tracked ws b s -> Forall i64 v -> List.length v = (2 ^ nv)%nat -> eval_node wenv n = Some v ->
  w_tensors ws' = hputs (w_tensors ws) outs v -> b_nodes b' = hputs (b_nodes b) outs n -> b_nv b' = hputs (b_nv b) outs nv ->
  ps_sizes s' = hputs (ps_sizes s) outs (2 ^ nv)%nat -> tracked ws' b' s'.
Proof.
  intros H Fv Lv Ev E1 E2 E3 E4 x. rewrite E1, E2, E3, E4. destruct (in_dec string_dec x outs) as [I|I].
  - rewrite !hputs_in by auto. split; [exact Fv|]. exists n, nv. auto.
  - rewrite !hputs_out by auto. apply H.
Qed.

Lemma layouts_put ws b s ws' b' s' outs lay : same_layouts ws b s ->
  w_layouts ws' = match lay with Some y => hputs (w_layouts ws) outs y | None => w_layouts ws end ->
  b_layouts b' = match lay with Some y => hputs (b_layouts b) outs y | None => b_layouts b end ->
  ps_layouts s' = match lay with Some y => hputs (ps_layouts s) outs y | None => ps_layouts s end -> same_layouts ws' b' s'.
Proof.
  intros H E1 E2 E3 x. rewrite E1, E2, E3. destruct lay as [y|]; [|apply H]. destruct (in_dec string_dec x outs) as [I|I].
  - now rewrite !hputs_in by auto.
  - rewrite !hputs_out by auto. apply H.
Qed.

Lemma rescale_holds v bias q r al vv sum vb vq vr nv : eval_sector wenv v = Some vv -> zip_with Z.add vv vb = Some sum ->
  wenv bias = Some vb -> wenv q = Some vq -> wenv r = Some vr -> List.length vv = (2 ^ nv)%nat -> List.length vb = (2 ^ nv)%nat ->
  List.length vq = List.length sum -> List.length vr = List.length sum ->
  (forall i, (i < List.length sum)%nat -> at_ sum i = al * at_ vq i + at_ vr i) ->
  holds p wenv (Zero (rescale_check v (ENode (NShred bias nv)) (ENode (NShred q nv)) (ENode (NShred r nv)) al)) = true.
Proof.
  intros Ev Ez Eb Eq Er Lv Lb Lq Lr A. pose proof (zip_with_inv _ _ _ _ Ez) as (_ & Ls & _).
  assert (Q1 : exists d, zip_with Z.sub sum (map (Z.mul al) vq) = Some d) by (apply zip_with_some; rewrite map_length; lia).
  destruct Q1 as (d & Ed). pose proof (zip_with_inv _ _ _ _ Ed) as (_ & Ld & Ad).
  assert (Q2 : exists e, zip_with Z.sub d vr = Some e) by (apply zip_with_some; lia).
  destruct Q2 as (e & Ee). pose proof (zip_with_inv _ _ _ _ Ee) as (_ & Le & Ae).
  apply holds_zero_intro with e.
  - cbn [rescale_check eval_sector]. rewrite Ev, (shred_eval wenv bias nv vb), (shred_eval wenv q nv vq), (shred_eval wenv r nv vr) by (auto; lia).
    cbn [obind]. rewrite Ez. cbn [obind]. rewrite Ed. cbn [obind]. exact Ee.
  - intros i Hi. rewrite Ae, Ad by lia. rewrite at_map by lia. rewrite A by lia. ring.
Qed.

Variables (o : hmap nat) (m : model).
Hypothesis Ha : 0 < m_alpha m < 2 ^ 63.

Lemma honest_gemm l ws ws' b b' s :
  build_gemm (apply_observed o m) l b = Some b' -> witness_gemm m l ws = Some ws' -> l_op l = Gemm ->
  tracked ws b s ->
  (forall t, owned (l_name l) t -> sget W t = sget (w_shreds ws') t) ->
  (forall h t, owned (l_name l) t -> sget W (SChunk h t) = sget (w_shreds ws') (SChunk h t)) ->
  (forall e, In e (b_manifest b') -> sget man (fst e) <> None) ->
  (exists ts, width_tables (m_exponent m) = Some ts /\ incl ts T) ->
  (forall x v k n wn wt, aget (l_inputs l) 0 = Some x -> hget (w_tensors ws) x = Some v ->
     aget (l_inputs l) 1 = Some wn -> hget (l_weights l) wn = Some wt -> gemm_dims l (fst wt) = Some (k, n) -> List.length v = pow2_for k) ->
  exists s', public_layer l s = Some s' /\ step l ws b s ws' b' s'.
Proof.
  intros B Wt Eop Tr HW HC HM (ts & Ets & Hts) HS.
  unfold witness_gemm in Wt. inv_step Wt. rename a into x, E into Ex. inv_step Wt. rename a into data, E into Ed. inv_step Wt. rename G into Gt.
  inv_step Wt. destruct a as (((w, bias), k), n). rename E into Eg. destruct (gemm_public_inv _ _ _ _ _ Eg) as (wn & wt & Ewn & Ewt & Edim & Lw & Lb).
  inv_step Wt. rename a into mm, E into Emm. inv_step Wt. rename a into sum, E into Esum. inv_step Wt. destruct a as (q, st). rename E into Er.
  injection Wt as <-.
  unfold build_gemm in B. rewrite Ex, Ewn in B. cbn [obind] in B. rewrite Ewt in B. cbn [obind] in B. rewrite Gt in B. cbn [guard obind] in B.
  rewrite Edim in B. cbn [obind] in B. inv_step B. rename a into xin, E into Exin. change (hget (b_nodes b) x = Some xin) in Exin. injection B as <-.
  specialize (HS x data k n wn wt Ex Ed Ewn Ewt Edim).
  pose proof (Tr x) as Hx. rewrite Ed in Hx. destruct Hx as (Fd & n0 & nv0 & N1 & N2 & N3 & N4 & N5). rewrite Exin in N1. injection N1 as <-.
  rewrite pad_same in Emm by auto.
  apply matmul_inv in Emm. destruct Emm as (Emm & Fmm).
  assert (Lmm : List.length mm = pow2_for n) by (rewrite Emm, map_length, seq_length; lia).
  destruct (checked_zip_inv _ _ _ _ Esum ltac:(lia)) as (Ez & Fsum & Lsum).
  destruct (insert_rescaled_inv _ _ _ _ _ _ Ha Fsum Er) as (r & Lq & Lr & Fq & A & R & T1 & T2 & T3 & S1 & S2 & S3 & S4).
  pose proof (S3 "bias" ltac:(discriminate) ltac:(discriminate)) as Sb. pose proof (S3 "weight" ltac:(discriminate) ltac:(discriminate)) as Sw.
  cbn [insert_shred w_shreds sget] in Sb, Sw. rewrite shred_eqb_refl in Sb. rewrite shred_neq in Sw by discriminate. rewrite shred_eqb_refl in Sw.
  cbn [set_outputs add_range add_zero add_shred b_manifest In] in HM.
  assert (Wm : forall t v, owned (l_name l) t -> (exists nv vis, In (t, (nv, vis))
     [(SLayer (l_name l) "r", (nvars n, Committed)); (SLayer (l_name l) "q", (nvars n, Committed));
      (SLayer (l_name l) "bias", (nvars n, Public)); (SLayer (l_name l) "weight", ((nvars k + nvars n)%nat, Public))]) ->
     sget (w_shreds st) t = Some v -> wenv t = Some v /\ sget W t = Some v).
  { intros t v Ho (nv & vis & Hin) Hv. unfold wenv. rewrite HW by exact Ho. cbn [insert_tensors w_shreds].
    assert (M : sget man t <> None) by (apply (HM (t, (nv, vis))); cbn [In] in *; tauto).
    destruct (sget man t); [auto|congruence]. }
  destruct (Wm (SLayer (l_name l) "q") q) as (Vq & _); [reflexivity|do 2 eexists; cbn; eauto|exact S1|].
  destruct (Wm (SLayer (l_name l) "r") r) as (Vr & _); [reflexivity|do 2 eexists; cbn; eauto|exact S2|].
  destruct (Wm (SLayer (l_name l) "bias") bias) as (Vb & Wb); [reflexivity|do 2 eexists; cbn; eauto|exact Sb|].
  destruct (Wm (SLayer (l_name l) "weight") w) as (Vw & Ww); [reflexivity|do 2 eexists; cbn; eauto 6|exact Sw|].
  eexists. split; [unfold public_layer; rewrite Eop, Eg; reflexivity|].
  constructor.
  - apply (tracked_put ws b s _ _ _ (l_outputs l) (NShred (SLayer (l_name l) "q") (nvars n)) (nvars n) q); try reflexivity; auto.
    + fold (pow2_for n). lia.
    + apply shred_eval; [exact Vq|]. fold (pow2_for n). lia.
    + cbn [insert_tensors w_tensors]. now rewrite T1.
  - intros _ SL. apply (layouts_put ws b s _ _ _ (l_outputs l) None SL); try reflexivity. cbn [insert_tensors w_layouts]. now rewrite T2.
  - cbn [set_outputs add_range add_zero add_shred b_checks In]. intros c [<-|Hc]; [right|left; exact Hc].
    apply rescale_holds with mm sum bias q r; auto; try (fold (pow2_for n); lia); try lia.
    cbn [eval_sector]. rewrite (nmat_eval wenv _ _ _ _ _ _ data w); auto.
    + rewrite Emm. unfold pow2_for. rewrite Nat.mul_1_l. reflexivity.
    + apply shred_eval; [exact Vw|]. rewrite Nat.pow_add_r. exact Lw.
    + rewrite Nat.pow_add_r. exact Lw.
  - cbn [set_outputs add_range add_zero add_shred b_ranges In]. intros rc [<-|Hrc]; [right|left; exact Hrc].
    exists r, ts. split; [apply shred_eval; [exact Vr|fold (pow2_for n); lia]|]. split; [fold (pow2_for n); lia|]. split; [exact R|].
    split; [exact Ets|]. split; [exact Hts|]. intros Hc. rewrite !HC by reflexivity. exact (S4 Hc).
  - cbn [set_outputs add_range add_zero add_shred b_manifest In]. intros t nv [E|[E|[E|[E|E]]]]; try (left; exact E); try discriminate;
      injection E as <- <-; right; eexists; (split; [|first [exact Wb|exact Ww]]); cbn [put_sizes put_shred ps_shreds sget]; sget_tac; reflexivity.
Qed.

Lemma honest_conv l ws ws' b b' s :
  build_conv (apply_observed o m) l b = Some b' -> witness_conv m l ws = Some ws' -> l_op l = Conv ->
  tracked ws b s -> same_layouts ws b s ->
  (forall t, owned (l_name l) t -> sget W t = sget (w_shreds ws') t) ->
  (forall h t, owned (l_name l) t -> sget W (SChunk h t) = sget (w_shreds ws') (SChunk h t)) ->
  (forall e, In e (b_manifest b') -> sget man (fst e) <> None) ->
  (exists ts, width_tables (m_exponent m) = Some ts /\ incl ts T) ->
  exists s', public_layer l s = Some s' /\ step l ws b s ws' b' s'.
Proof.
  intros B Wt Eop Tr SL HW HC HM (ts & Ets & Hts).
  unfold witness_conv in Wt. inv_step Wt. rename a into x, E into Ex. inv_step Wt. rename a into data, E into Ed.
  inv_step Wt. rename a into lay, E into Elay.
  inv_step Wt. destruct a as ((w, bias), g). rename E into Eg. destruct (conv_public_inv _ _ _ _ _ Eg) as (wn & wt & Ewn & Ewt & Egeo & Lw & Lb).
  inv_step Wt. rename a into pa, E into Epa.
  inv_step Wt. rename a into mm, E into Emm. inv_step Wt. rename a into sum, E into Esum. inv_step Wt. destruct a as (q, st). rename E into Er.
  injection Wt as <-.
  destruct (SL x) as (SL1 & SL2). rewrite Elay in SL1. symmetry in SL1. rewrite SL1 in SL2.
  unfold build_conv in B. rewrite Ex, Ewn in B. cbn [obind] in B. rewrite Ewt in B. cbn [obind] in B. rewrite SL1 in B. cbn [obind] in B.
  rewrite Egeo in B. cbn [obind] in B. inv_step B. rename a into xin, E into Exin. injection B as <-.
  pose proof (Tr x) as Hx. rewrite Ed in Hx. destruct Hx as (Fd & n0 & nv0 & N1 & N2 & N3 & N4 & N5). rewrite Exin in N1. injection N1 as <-.
  set (R := nvars (g_patches g)) in *. set (K := nvars (g_patch g)) in *. set (N := nvars (g_cout g)) in *.
  rewrite taps_wiring in Epa.
  change (pow2_for (g_patches g)) with (2 ^ R)%nat in *. change (pow2_for (g_patch g)) with (2 ^ K)%nat in *. change (pow2_for (g_cout g)) with (2 ^ N)%nat in *.
  rewrite <- Nat.pow_add_r in Epa, Lw, Lb.
  pose proof (gather_inv _ _ _ _ Epa (wiring_nodup g lay)) as (Lpa & _ & _).
  pose proof (gather_eval wenv xin _ _ _ _ N5 (wiring_nodup g lay) Epa) as Vpa.
  apply matmul_inv in Emm. destruct Emm as (Emm & Fmm). rewrite <- Nat.pow_add_r in Emm.
  assert (Lmm : List.length mm = (2 ^ (R + N))%nat) by (rewrite Emm, map_length, seq_length; lia).
  destruct (checked_zip_inv _ _ _ _ Esum ltac:(lia)) as (Ez & Fsum & Lsum).
  destruct (insert_rescaled_inv _ _ _ _ _ _ Ha Fsum Er) as (r & Lq & Lr & Fq & A & Rg & T1 & T2 & T3 & S1 & S2 & S3 & S4).
  pose proof (S3 "bias" ltac:(discriminate) ltac:(discriminate)) as Sb. pose proof (S3 "weight" ltac:(discriminate) ltac:(discriminate)) as Sw.
  cbn [insert_shred w_shreds sget] in Sb, Sw. rewrite shred_eqb_refl in Sb. rewrite shred_neq in Sw by discriminate. rewrite shred_eqb_refl in Sw.
  cbn [set_layouts set_outputs add_range add_zero add_shred b_manifest In] in HM.
  assert (Wm : forall t v, owned (l_name l) t -> (exists nv vis, In (t, (nv, vis))
     [(SLayer (l_name l) "r", ((R + N)%nat, Committed)); (SLayer (l_name l) "q", ((R + N)%nat, Committed));
      (SLayer (l_name l) "bias", ((R + N)%nat, Public)); (SLayer (l_name l) "weight", ((K + N)%nat, Public))]) ->
     sget (w_shreds st) t = Some v -> wenv t = Some v /\ sget W t = Some v).
  { intros t v Ho (nv & vis & Hin) Hv. unfold wenv. rewrite HW by exact Ho. cbn [insert_layouts insert_tensors w_shreds].
    assert (M : sget man t <> None) by (apply (HM (t, (nv, vis))); cbn [In] in *; tauto).
    destruct (sget man t); [auto|congruence]. }
  destruct (Wm (SLayer (l_name l) "q") q) as (Vq & _); [reflexivity|do 2 eexists; cbn; eauto|exact S1|].
  destruct (Wm (SLayer (l_name l) "r") r) as (Vr & _); [reflexivity|do 2 eexists; cbn; eauto|exact S2|].
  destruct (Wm (SLayer (l_name l) "bias") bias) as (Vb & Wb); [reflexivity|do 2 eexists; cbn; eauto|exact Sb|].
  destruct (Wm (SLayer (l_name l) "weight") w) as (Vw & Ww); [reflexivity|do 2 eexists; cbn; eauto 6|exact Sw|].
  eexists. split; [unfold public_layer; rewrite Eop, Ex; cbn [obind]; rewrite SL2; cbn [obind]; rewrite Eg; reflexivity|].
  constructor.
  - apply (tracked_put ws b s _ _ _ (l_outputs l) (NShred (SLayer (l_name l) "q") (R + N)) (R + N)%nat q); try reflexivity; auto.
    + lia.
    + apply shred_eval; [exact Vq|]. lia.
    + cbn [insert_layouts insert_tensors w_tensors]. now rewrite T1.
    + cbn [put_sizes ps_sizes put_shred]. now rewrite Nat.pow_add_r.
  - intros _ _. eapply (layouts_put ws b s _ _ _ (l_outputs l) (Some _) SL); try reflexivity. cbn [insert_layouts insert_tensors w_layouts]. now rewrite T2.
  - cbn [set_layouts set_outputs add_range add_zero add_shred b_checks In]. intros c [<-|Hc]; [right|left; exact Hc].
    apply rescale_holds with mm sum bias q r; auto; try lia.
    cbn [eval_sector]. rewrite (nmat_eval wenv _ _ _ _ _ _ pa w); auto.
    + now rewrite Emm.
    + apply shred_eval; [exact Vw|]. exact Lw.
  - cbn [set_layouts set_outputs add_range add_zero add_shred b_ranges In]. intros rc [<-|Hrc]; [right|left; exact Hrc].
    exists r, ts. split; [apply shred_eval; [exact Vr|lia]|]. split; [lia|]. split; [exact Rg|].
    split; [exact Ets|]. split; [exact Hts|]. intros Hc. rewrite !HC by reflexivity. exact (S4 Hc).
  - cbn [set_layouts set_outputs add_range add_zero add_shred b_manifest In]. intros t nv [E|[E|[E|[E|E]]]]; try (left; exact E); try discriminate;
      injection E as <- <-; right; eexists; (split; [|first [exact Wb|exact Ww]]); cbn [put_sizes put_shred ps_shreds sget]; sget_tac; reflexivity.
Qed.

Lemma honest_batchnorm l ws ws' b b' s :
  build_batchnorm (apply_observed o m) l b = Some b' -> witness_batchnorm m l ws = Some ws' -> l_op l = BatchNorm ->
  tracked ws b s -> same_layouts ws b s ->
  (forall t, owned (l_name l) t -> sget W t = sget (w_shreds ws') t) ->
  (forall h t, owned (l_name l) t -> sget W (SChunk h t) = sget (w_shreds ws') (SChunk h t)) ->
  (forall e, In e (b_manifest b') -> sget man (fst e) <> None) ->
  (exists ts, width_tables (m_exponent m) = Some ts /\ incl ts T) ->
  exists s', public_layer l s = Some s' /\ step l ws b s ws' b' s'.
Proof.
  intros B Wt Eop Tr SL HW HC HM (ts & Ets & Hts).
  unfold witness_batchnorm in Wt. inv_step Wt. rename a into x, E into Ex. inv_step Wt. rename a into data, E into Ed.
  inv_step Wt. destruct a as (mul, add). rename E into Eg. destruct (bn_public_length _ _ _ _ _ Eg) as (Lm & La).
  inv_step Wt. rename a into pr, E into Epr. inv_step Wt. rename a into sum, E into Esum. inv_step Wt. destruct a as (q, st). rename E into Er.
  injection Wt as <-.
  destruct (SL x) as (SL1 & SL2).
  pose proof (Tr x) as Hx. rewrite Ed in Hx. destruct Hx as (Fd & xin & nv & N1 & N2 & N3 & N4 & N5).
  unfold build_batchnorm in B. rewrite Ex in B. cbn [obind] in B. rewrite N2 in B. cbn [obind] in B.
  cbn [add_shred b_nodes] in B. rewrite N1 in B. cbn [obind] in B. injection B as <-.
  rewrite N4, pow2_for_2 in *.
  rewrite pad_same in Epr by auto.
  destruct (checked_zip_inv _ _ _ _ Epr ltac:(lia)) as (Ep & Fpr & Lpr).
  destruct (checked_zip_inv _ _ _ _ Esum ltac:(lia)) as (Ez & Fsum & Lsum).
  destruct (insert_rescaled_inv _ _ _ _ _ _ Ha Fsum Er) as (r & Lq & Lr & Fq & A & Rg & T1 & T2 & T3 & S1 & S2 & S3 & S4).
  pose proof (S3 "add" ltac:(discriminate) ltac:(discriminate)) as Sb. pose proof (S3 "mul" ltac:(discriminate) ltac:(discriminate)) as Sw.
  cbn [insert_shred w_shreds sget] in Sb, Sw. rewrite shred_eqb_refl in Sb. rewrite shred_neq in Sw by discriminate. rewrite shred_eqb_refl in Sw.
  cbn [set_layouts set_outputs add_range add_zero add_shred b_manifest In] in HM.
  assert (Wm : forall t v, owned (l_name l) t -> (exists nv' vis, In (t, (nv', vis))
     [(SLayer (l_name l) "r", (nv, Committed)); (SLayer (l_name l) "q", (nv, Committed));
      (SLayer (l_name l) "add", (nv, Public)); (SLayer (l_name l) "mul", (nv, Public))]) ->
     sget (w_shreds st) t = Some v -> wenv t = Some v /\ sget W t = Some v).
  { intros t v Ho (nv' & vis & Hin) Hv. unfold wenv. rewrite HW by exact Ho. cbn [insert_layouts insert_tensors w_shreds].
    assert (M : sget man t <> None) by (apply (HM (t, (nv', vis))); cbn [In] in *; tauto).
    destruct (sget man t); [auto|congruence]. }
  destruct (Wm (SLayer (l_name l) "q") q) as (Vq & _); [reflexivity|do 2 eexists; cbn; eauto|exact S1|].
  destruct (Wm (SLayer (l_name l) "r") r) as (Vr & _); [reflexivity|do 2 eexists; cbn; eauto|exact S2|].
  destruct (Wm (SLayer (l_name l) "add") add) as (Vb & Wb); [reflexivity|do 2 eexists; cbn; eauto|exact Sb|].
  destruct (Wm (SLayer (l_name l) "mul") mul) as (Vw & Ww); [reflexivity|do 2 eexists; cbn; eauto 6|exact Sw|].
  eexists. split; [unfold public_layer; rewrite Eop, Ex; cbn [obind]; rewrite N3; cbn [obind]; rewrite SL2, <- SL1, Eg; reflexivity|].
  constructor.
  - apply (tracked_put ws b s _ _ _ (l_outputs l) (NShred (SLayer (l_name l) "q") nv) nv q); try reflexivity; auto.
    + lia.
    + apply shred_eval; [exact Vq|]. lia.
    + cbn [insert_layouts insert_tensors w_tensors]. now rewrite T1.
    + cbn [put_sizes ps_sizes put_shred]. now rewrite pow2_for_2.
  - intros _ _. eapply (layouts_put ws b s _ _ _ (l_outputs l) (hget (w_layouts ws) x) SL); try reflexivity.
    + cbn [insert_layouts insert_tensors w_layouts]. now rewrite T2.
    + cbn [set_layouts set_outputs b_layouts add_range add_zero add_shred]. now rewrite SL1.
  - cbn [set_layouts set_outputs add_range add_zero add_shred b_checks In]. intros c [<-|Hc]; [right|left; exact Hc].
    apply rescale_holds with pr sum add q r; auto; try lia.
    cbn [eval_sector eval_prod]. rewrite N5, (shred_eval wenv _ _ mul) by auto. exact Ep.
  - cbn [set_layouts set_outputs add_range add_zero add_shred b_ranges In]. intros rc [<-|Hrc]; [right|left; exact Hrc].
    exists r, ts. split; [apply shred_eval; [exact Vr|lia]|]. split; [lia|]. split; [exact Rg|].
    split; [exact Ets|]. split; [exact Hts|]. intros Hc. rewrite !HC by reflexivity. exact (S4 Hc).
  - cbn [set_layouts set_outputs add_range add_zero add_shred b_manifest In]. intros t nv' [E|[E|[E|[E|E]]]]; try (left; exact E); try discriminate;
      injection E as <- <-; right; eexists; (split; [|first [exact Wb|exact Ww]]); cbn [put_sizes put_shred ps_shreds sget]; sget_tac; reflexivity.
Qed.

Lemma honest_cast l ws ws' b b' s :
  build_alias l b = Some b' -> witness_cast l ws = Some ws' -> l_op l = Cast -> tracked ws b s ->
  exists s', public_layer l s = Some s' /\ step l ws b s ws' b' s'.
Proof.
  intros B Wt Eop Tr. unfold witness_cast in Wt. inv_step Wt. rename a into x, E into Ex. inv_step Wt. rename a into data, E into Ed. injection Wt as <-.
  pose proof (Tr x) as Hx. rewrite Ed in Hx. destruct Hx as (Fd & xin & nv & N1 & N2 & N3 & N4 & N5).
  unfold build_alias in B. rewrite Ex in B. cbn [obind] in B. rewrite N1, N2 in B. cbn [obind] in B. injection B as <-.
  eexists. split; [unfold public_layer; rewrite Eop, Ex; cbn [obind]; rewrite N3; reflexivity|].
  constructor; auto.
  - now apply (tracked_put ws b s _ _ _ (l_outputs l) xin nv data).
  - intros _ SL. destruct (SL x) as (SL1 & SL2). eapply (layouts_put ws b s _ _ _ (l_outputs l) (hget (w_layouts ws) x) SL); try reflexivity.
    + cbn [set_layouts set_outputs b_layouts]. now rewrite SL1.
    + cbn [put_sizes ps_layouts]. now rewrite SL2, SL1.
Qed.

Lemma honest_reshape l ws ws' b b' s :
  build_alias l b = Some b' -> witness_reshape l ws = Some ws' -> l_op l = Reshape -> tracked ws b s ->
  exists s', public_layer l s = Some s' /\ step l ws b s ws' b' s'.
Proof.
  intros B Wt Eop Tr. unfold witness_reshape in Wt. inv_step Wt. rename a into x, E into Ex. inv_step Wt. rename a into data, E into Ed. injection Wt as <-.
  pose proof (Tr x) as Hx. rewrite Ed in Hx. destruct Hx as (Fd & xin & nv & N1 & N2 & N3 & N4 & N5).
  unfold build_alias in B. rewrite Ex in B. cbn [obind] in B. rewrite N1, N2 in B. cbn [obind] in B. injection B as <-.
  eexists. split; [unfold public_layer; rewrite Eop, Ex; cbn [obind]; rewrite N3; reflexivity|].
  constructor; auto.
  - apply (tracked_put ws b s _ _ _ (l_outputs l) xin nv data); auto. destruct (layout_from_output_shape _ _); reflexivity.
  - congruence.
Qed.

Lemma honest_relu l bits ws ws' b b' s : let l' := mkLayer (l_name l) (l_op l) (l_inputs l) (l_outputs l) (l_shape l) (Some bits)
      (l_weights l) (l_transA l) (l_transB l) (l_kernel l) (l_pads l) (l_strides l) (l_perm l) in
  build_relu (apply_observed o m) l' b = Some b' -> witness_relu m l ws = Some ws' -> l_op l = Relu ->
  hget (w_observed ws') (l_name l) = Some bits ->
  tracked ws b s ->
  (forall t, owned (l_name l) t -> sget W t = sget (w_shreds ws') t) ->
  (forall h t, owned (l_name l) t -> sget W (SChunk h t) = sget (w_shreds ws') (SChunk h t)) ->
  (forall e, In e (b_manifest b') -> sget man (fst e) <> None) ->
  (exists ts, width_tables (delta_table_nv bits (m_exponent m)) = Some ts /\ incl ts T) ->
  exists s', public_layer l s = Some s' /\ step l ws b s ws' b' s'.
Proof.
  intros l' B Wt Eop Ebits Tr HW HC HM (ts & Ets & Hts).
  unfold witness_relu in Wt. inv_step Wt. rename a into x, E into Ex. inv_step Wt. rename a into data, E into Ed.
  inv_step Wt. rename a into di, E into Edi. inv_step Wt. rename a into st1, E into Est1. inv_step Wt. rename a into st2, E into Est2. injection Wt as <-.
  set (out := map (fun x => Z.max x 0) data) in *.
  set (bits' := observed_n_bits_for_delta _ _) in *.
  destruct (insert_range_rest _ _ _ _ _ Est1) as (P1 & P2 & P3 & P4 & P5). pose proof (proj1 (insert_range_inv _ _ _ _ _ Est1)) as Rdi.
  destruct (insert_range_rest _ _ _ _ _ Est2) as (Q1 & Q2 & Q3 & Q4 & Q5). pose proof (proj1 (insert_range_inv _ _ _ _ _ Est2)) as Rdz.
  cbn [insert_layouts insert_tensors w_observed] in Ebits. rewrite Q3, P3 in Ebits. cbn [insert_observed w_observed hput hget] in Ebits.
  rewrite String.eqb_refl in Ebits. injection Ebits as Ebits.
  pose proof (Tr x) as Hx. rewrite Ed in Hx. destruct Hx as (Fd & xin & nv & N1 & N2 & N3 & N4 & N5).
  unfold build_relu in B. cbn [l_inputs l_name l_bits l_outputs l'] in B. rewrite Ex in B. cbn [obind] in B. rewrite N2 in B. cbn [obind] in B.
  cbn [add_shred b_nodes] in B. rewrite N1 in B. cbn [obind] in B. injection B as <-.
  assert (Lout : List.length out = (2 ^ nv)%nat) by (unfold out; now rewrite map_length).
  destruct (checked_zip_inv _ _ _ _ Edi ltac:(lia)) as (Ez & Fdi & Ldi).
  assert (Sg : forall t v, In t ["dz"; "di"; "max"; "zero"] ->
     sget (w_shreds (insert_shred (SLayer (l_name l) "dz") out (insert_shred (SLayer (l_name l) "di") di
              (insert_shred (SLayer (l_name l) "max") out
                 (insert_shred (SLayer (l_name l) "zero") (repeat 0 (pow2_for (List.length data))) ws))))) (SLayer (l_name l) t) = Some v ->
     wenv (SLayer (l_name l) t) = Some v /\ sget W (SLayer (l_name l) t) = Some v).
  { intros t v Ht Hv. unfold wenv. rewrite HW by reflexivity. cbn [insert_layouts insert_tensors w_shreds].
    rewrite Q4, P4 by discriminate. cbn [insert_observed w_shreds] in *. rewrite Hv.
    assert (M : sget man (SLayer (l_name l) t) <> None).
    { cbn [set_layouts set_outputs add_range add_zero add_shred b_manifest In] in HM.
      cbn [In] in Ht. destruct Ht as [<-|[<-|[<-|[<-|[]]]]]; [eapply (HM (_, _))|eapply (HM (_, _))|eapply (HM (_, _))|eapply (HM (_, _))]; eauto 6. }
    destruct (sget man (SLayer (l_name l) t)); [auto|congruence]. }
  cbn [insert_shred w_shreds] in Sg. cbn [sget] in Sg.
  destruct (Sg "dz" out) as (Vz & _); [cbn; auto|sget_tac; reflexivity|].
  destruct (Sg "di" di) as (Vi & _); [cbn; auto|sget_tac; reflexivity|].
  destruct (Sg "max" out) as (Vm & _); [cbn; auto|sget_tac; reflexivity|].
  destruct (Sg "zero" (repeat 0 (2 ^ nv))) as (V0 & W0); [cbn; auto 6|sget_tac; now rewrite N4, pow2_for_2|].
  clear Sg.
  assert (Fout : Forall i64 out).
  { unfold out. rewrite Forall_map. apply Forall_impl with (2 := Fd). unfold i64. intros y Hy. lia. }
  eexists. split; [unfold public_layer; rewrite Eop, Ex; cbn [obind]; rewrite N3; reflexivity|].
  constructor.
  - apply (tracked_put ws b s _ _ _ (l_outputs l) (NShred (SLayer (l_name l) "max") nv) nv out); try reflexivity; auto.
    + now apply shred_eval.
    + cbn [insert_layouts insert_tensors w_tensors]. now rewrite Q1, P1.
  - intros _ SL. destruct (SL x) as (SL1 & SL2). eapply (layouts_put ws b s _ _ _ (l_outputs l) (hget (w_layouts ws) x) SL).
    + cbn [insert_layouts insert_tensors w_layouts]. now rewrite !Q2, !P2.
    + cbn [set_layouts set_outputs b_layouts add_range add_zero add_shred]. now rewrite SL1.
    + cbn [put_sizes put_shred ps_layouts]. now rewrite SL2, SL1.
  - cbn [set_layouts set_outputs add_range add_zero add_shred b_checks In]. intros c [<-|[<-|[<-|Hc]]]; [right|right|right|left; exact Hc].
    + destruct (zip_with_some Z.mul di out ltac:(lia)) as (d & Edd). destruct (zip_with_inv _ _ _ _ Edd) as (_ & Ld & Ad).
      destruct (zip_with_inv _ _ _ _ Ez) as (_ & _ & Ai).
      apply holds_zero_intro with d.
      * cbn [eval_sector eval_prod]. rewrite (shred_eval wenv _ _ di), (shred_eval wenv _ _ out) by (auto; lia). exact Edd.
      * intros i Hi. rewrite Ad by lia. rewrite Ai by lia. unfold out. rewrite at_map by lia. nia.
    + apply sub_sub_holds with out (repeat 0 (2 ^ nv)) out.
      * cbn [eval_sector]. now apply shred_eval.
      * cbn [eval_sector]. apply shred_eval; auto. apply repeat_length.
      * cbn [eval_sector]. now apply shred_eval.
      * destruct (zip_with_some Z.sub out (repeat 0 (2 ^ nv)) ltac:(now rewrite repeat_length)) as (e & Ee). rewrite Ee. f_equal.
        destruct (zip_with_inv _ _ _ _ Ee) as (_ & Le & Ae). apply at_ext; [exact Le|]. intros i Hi. rewrite Ae by lia. unfold at_ at 2. rewrite nth_repeat. lia.
    + apply sub_sub_holds with out data di; auto; cbn [eval_sector]; auto; apply shred_eval; auto; lia.
  - cbn [set_layouts set_outputs add_range add_zero add_shred b_ranges In]. rewrite Ebits in *. intros rc [<-|[<-|Hrc]]; [right|right|left; exact Hrc].
    + exists out, ts. split; [now apply shred_eval|]. split; [lia|]. split; [exact Rdz|]. split; [exact Ets|]. split; [exact Hts|].
      intros Hc. rewrite !HC by reflexivity. exact (Q5 Hc).
    + exists di, ts. split; [apply shred_eval; auto; lia|]. split; [lia|]. split; [exact Rdi|]. split; [exact Ets|]. split; [exact Hts|].
      intros Hc. rewrite !HC by reflexivity. cbn [insert_layouts insert_tensors w_shreds]. rewrite !Q4 by congruence. exact (P5 Hc).
  - cbn [set_layouts set_outputs add_range add_zero add_shred b_manifest In]. intros t nv' [E|[E|[E|[E|E]]]]; try (left; exact E); try discriminate.
    injection E as <- <-. right. eexists. split; [|exact W0]. cbn [put_sizes put_shred ps_shreds sget]. rewrite shred_eqb_refl. now rewrite pow2_for_2.
Qed.

Lemma pow2_max a b : pow2_for a = pow2_for b -> pow2_for (Nat.max a b) = pow2_for a.
Proof. intros E. destruct (Nat.max_dec a b) as [->| ->]; congruence. Qed.
Lemma pow2_nvars a n : pow2_for a = (2 ^ n)%nat -> nvars a = n.
Proof. intros E. unfold pow2_for in E. apply Nat.pow_inj_r in E; lia. Qed.
Lemma pad_length l n : List.length (pad_to_size l n) = n.
Proof. unfold pad_to_size. rewrite app_length, firstn_length, repeat_length. lia. Qed.

Lemma addsub_holds (add : bool) an cn pa pc res sr nv : eval_node wenv an = Some pa -> eval_node wenv cn = Some pc -> wenv sr = Some res ->
  List.length pa = (2 ^ nv)%nat -> List.length pc = (2 ^ nv)%nat -> zip_with (if add then Z.add else Z.sub) pa pc = Some res ->
  holds p wenv (Zero (ESub ((if add then EAdd else ESub) (ENode an) (ENode cn)) (ENode (NShred sr nv)))) = true.
Proof.
  intros Ea Ec Er La Lc Ez. destruct (zip_with_inv _ _ _ _ Ez) as (_ & Lr & _).
  destruct (zip_with_some Z.sub res res eq_refl) as (d & Ed). destruct (zip_with_inv _ _ _ _ Ed) as (_ & L3 & A3).
  apply holds_zero_intro with d.
  - pose proof (shred_eval wenv sr nv res Er ltac:(lia)) as Vr.
    destruct add; cbn [eval_sector]; rewrite Ea, Ec, Vr; cbn [obind]; rewrite Ez; exact Ed.
  - intros i Hi. rewrite A3 by lia. lia.
Qed.

Lemma honest_addsub l add ws ws' b b' s :
  build_addsub l add b = Some b' -> witness_addsub l add ws = Some ws' -> l_op l = (if add then Add else Sub) ->
  tracked ws b s ->
  (forall t, owned (l_name l) t -> sget W t = sget (w_shreds ws') t) ->
  (forall e, In e (b_manifest b') -> sget man (fst e) <> None) ->
  hget (l_weights l) "result" = None ->
  (let get x := match hget (w_tensors ws) x with Some v => Some v | None => let* w := hget (l_weights l) x in Some (snd w) end in
   forall a c va vc, aget (l_inputs l) 0 = Some a -> aget (l_inputs l) 1 = Some c -> get a = Some va -> get c = Some vc ->
     pow2_for (List.length va) = pow2_for (List.length vc)) ->
  exists s', public_layer l s = Some s' /\ step l ws b s ws' b' s'.
Proof.
  intros B Wt Eop Tr HW HM HR HS.
  unfold witness_addsub in Wt. inv_step Wt. rename E into Ea. inv_step Wt. rename a0 into c, E into Ec.
  inv_step Wt. rename a0 into va, E into Eva. inv_step Wt. rename a0 into vc, E into Evc.
  specialize (HS a c va vc Ea Ec Eva Evc). cbv zeta in Wt. rewrite (pow2_max _ _ HS) in Wt.
  inv_step Wt. rename a0 into res, E into Eres. injection Wt as <-.
  set (N := pow2_for (List.length va)) in *.
  destruct (checked_zip_inv _ _ _ _ Eres ltac:(now rewrite !pad_length)) as (Ez & Fres & Lres). rewrite pad_length in Lres.
  assert (NR : forall x w, hget (l_weights l) x = Some w -> SLayer (l_name l) "result" <> SLayer (l_name l) x).
  { intros x w Hx E. injection E as <-. congruence. }
  pose proof (Tr a) as Ta. pose proof (Tr c) as Tc.
  unfold build_addsub in B. rewrite Ea, Ec in B. cbn [obind] in B.
  assert (Out : exists nv s' an cn bm, N = (2 ^ nv)%nat /\ public_layer l s = Some s' /\
     ps_sizes s' = hputs (ps_sizes s) (l_outputs l) N /\
     ps_layouts s' = ps_layouts (put_sizes (l_outputs l) N (match hget (ps_layouts s) a with Some y => Some y | None => hget (ps_layouts s) c end) s) /\
     b' = set_layouts (l_outputs l) (match hget (b_layouts b) a with Some y => Some y | None => hget (b_layouts b) c end)
            (set_outputs (l_outputs l) (NShred (SLayer (l_name l) "result") nv) nv
               (add_zero (ESub ((if add then EAdd else ESub) (ENode an) (ENode cn)) (ENode (NShred (SLayer (l_name l) "result") nv)))
                  (add_shred (SLayer (l_name l) "result") nv Committed bm))) /\
     b_checks bm = b_checks b /\ b_ranges bm = b_ranges b /\ b_nodes bm = b_nodes b /\ b_nv bm = b_nv b /\ b_layouts bm = b_layouts b /\
     eval_node wenv an = Some (pad_to_size va N) /\ eval_node wenv cn = Some (pad_to_size vc N) /\
     (forall t nv0, In (t, (nv0, Public)) (b_manifest bm) ->
        In (t, (nv0, Public)) (b_manifest b) \/ exists v, sget (ps_shreds s') t = Some v /\ sget W t = Some v)).
  { destruct (hget (w_tensors ws) a) as [ta|] eqn:Eta; destruct (hget (w_tensors ws) c) as [tc|] eqn:Etc.
    - (* two tensors *)
      injection Eva as ->. injection Evc as ->.
      destruct Ta as (_ & an & av & N1 & N2 & N3 & N4 & N5). destruct Tc as (_ & cn & cv & M1 & M2 & M3 & M4 & M5).
      assert (EN : N = (2 ^ av)%nat) by (unfold N; now rewrite N4, pow2_for_2).
      assert (EM : N = (2 ^ cv)%nat) by (rewrite HS, M4; apply pow2_for_2).
      assert (cv = av) by (apply (Nat.pow_inj_r 2); lia). subst cv.
      unfold resolve_input in B. rewrite N1 in B. cbn [guard obind] in B. rewrite N2 in B. cbn [obind] in B. rewrite M1, M2 in B. cbn [obind] in B.
      rewrite Nat.max_id in B. injection B as <-.
      exists av. eexists. exists an, cn, b. split; [exact EN|]. split.
      { unfold public_layer. rewrite Eop. destruct add; rewrite Ea, Ec; cbn [obind]; rewrite N3, M3; cbn [obind]; rewrite Nat.max_id; reflexivity. }
      rewrite pow2_for_2, <- EN. do 8 (split; [reflexivity|]).
      split; [now rewrite pad_same by lia|]. split; [now rewrite pad_same by lia|]. intros; now left.
    - (* a tensor and a constant *)
      injection Eva as ->. inv_step Evc. rename a0 into w, E into Ew. injection Evc as <-.
      destruct Ta as (_ & an & av & N1 & N2 & N3 & N4 & N5). destruct Tc as (M1 & M3).
      assert (EN : N = (2 ^ av)%nat) by (unfold N; now rewrite N4, pow2_for_2).
      assert (Ecv : nvars (List.length (snd w)) = av) by (apply pow2_nvars; lia).
      unfold resolve_input in B. rewrite N1 in B. cbn [guard obind] in B. rewrite N2 in B. cbn [obind] in B. rewrite M1, Ew in B. cbn [obind] in B.
      rewrite Ecv, Nat.max_id in B. injection B as <-.
      assert (Wc : sget W (SLayer (l_name l) c) = Some (pad_to_size (snd w) N)).
      { rewrite HW by reflexivity. cbn [insert_layouts insert_tensors insert_shred w_shreds sget].
        rewrite (shred_neq _ _ (NR _ _ Ew)), shred_eqb_refl. reflexivity. }
      assert (Mc : sget man (SLayer (l_name l) c) <> None).
      { apply (HM (SLayer (l_name l) c, (av, Public))). cbn. auto. }
      exists av. eexists. exists an, (NShred (SLayer (l_name l) c) av), (add_shred (SLayer (l_name l) c) av Public b). split; [exact EN|]. split.
      { unfold public_layer. rewrite Eop. destruct add; rewrite Ea, Ec; cbn [obind]; rewrite N3, M3; cbn [obind]; rewrite Ew; cbn [obind]; reflexivity. }
      rewrite <- N4, (pow2_max _ _ HS). fold N. do 8 (split; [reflexivity|]).
      split; [now rewrite pad_same by lia|]. split.
      { apply shred_eval; [|rewrite pad_length; lia]. unfold wenv. destruct (sget man _); [exact Wc|congruence]. }
      intros t nv0 [E|E]; [injection E as <- <-|now left]. right. eexists. split; [|exact Wc].
      cbn [put_sizes put_shred ps_shreds sget]. now rewrite shred_eqb_refl.
    - (* a constant and a tensor *)
      injection Evc as ->. inv_step Eva. rename a0 into w, E into Ew. injection Eva as <-.
      destruct Tc as (_ & cn & cv & N1 & N2 & N3 & N4 & N5). destruct Ta as (M1 & M3).
      assert (EN : N = (2 ^ cv)%nat) by (rewrite HS, N4; apply pow2_for_2).
      assert (Eav : nvars (List.length (snd w)) = cv) by (apply pow2_nvars; exact EN).
      unfold resolve_input in B. rewrite M1 in B. rewrite N1 in B. cbn [guard obind] in B. rewrite Ew in B. cbn [obind] in B.
      cbn [add_shred b_nodes b_nv] in B. rewrite N1, N2 in B. cbn [obind] in B.
      rewrite Eav, Nat.max_id in B. injection B as <-.
      assert (Wc : sget W (SLayer (l_name l) a) = Some (pad_to_size (snd w) N)).
      { rewrite HW by reflexivity. cbn [insert_layouts insert_tensors insert_shred w_shreds sget].
        rewrite (shred_neq _ _ (NR _ _ Ew)), shred_eqb_refl. reflexivity. }
      assert (Mc : sget man (SLayer (l_name l) a) <> None).
      { apply (HM (SLayer (l_name l) a, (cv, Public))). cbn. auto. }
      exists cv. eexists. exists (NShred (SLayer (l_name l) a) cv), cn, (add_shred (SLayer (l_name l) a) cv Public b). split; [exact EN|]. split.
      { unfold public_layer. rewrite Eop. destruct add; rewrite Ea, Ec; cbn [obind]; rewrite N3, M3; cbn [obind]; rewrite Ew; cbn [obind]; reflexivity. }
      rewrite <- N4, (pow2_max _ _ HS). fold N. do 8 (split; [reflexivity|]).
      split.
      { apply shred_eval; [|rewrite pad_length; lia]. unfold wenv. destruct (sget man _); [exact Wc|congruence]. }
      split; [now rewrite pad_same by lia|].
      intros t nv0 [E|E]; [injection E as <- <-|now left]. right. eexists. split; [|exact Wc].
      cbn [put_sizes put_shred ps_shreds sget]. now rewrite shred_eqb_refl.
    - (* two constants *)
      destruct Ta as (M1 & _), Tc as (M2 & _). rewrite M1, M2 in B. discriminate. }
  destruct Out as (nv & s' & an & cn & bm & EN & Ps & P1 & P2 & -> & B1 & B2 & B3 & B4 & B5 & Va & Vc & Pb).
  assert (Wr : sget W (SLayer (l_name l) "result") = Some res).
  { rewrite HW by reflexivity. cbn [insert_layouts insert_tensors insert_shred w_shreds sget]. now rewrite shred_eqb_refl. }
  assert (Mr : sget man (SLayer (l_name l) "result") <> None).
  { apply (HM (SLayer (l_name l) "result", (nv, Committed))). cbn. auto. }
  assert (Vr : wenv (SLayer (l_name l) "result") = Some res) by (unfold wenv; destruct (sget man _); [exact Wr|congruence]).
  exists s'. split; [exact Ps|]. constructor.
  - apply (tracked_put ws b s _ _ _ (l_outputs l) (NShred (SLayer (l_name l) "result") nv) nv res); auto.
    + lia.
    + apply shred_eval; [exact Vr|lia].
    + cbn [insert_layouts insert_tensors insert_shred w_tensors]. destruct (hget (w_tensors ws) a), (hget (w_tensors ws) c); reflexivity.
    + cbn [set_layouts set_outputs add_zero add_shred b_nodes]. now rewrite B3.
    + cbn [set_layouts set_outputs add_zero add_shred b_nv]. now rewrite B4.
    + now rewrite P1, EN.
  - intros _ SL. destruct (SL a) as (A1 & A2), (SL c) as (C1 & C2).
    eapply (layouts_put ws b s _ _ _ (l_outputs l) (match hget (b_layouts b) a with Some y => Some y | None => hget (b_layouts b) c end) SL).
    + cbn [insert_layouts insert_tensors insert_shred w_layouts]. rewrite A1, C1. destruct (hget (w_tensors ws) a), (hget (w_tensors ws) c); reflexivity.
    + cbn [set_layouts set_outputs add_zero add_shred b_layouts]. now rewrite B5.
    + rewrite P2, A2, C2. reflexivity.
  - cbn [set_layouts set_outputs add_zero add_shred b_checks In]. rewrite B1. intros e [<-|He]; [right|now left].
    apply addsub_holds with (pad_to_size va N) (pad_to_size vc N) res; auto; rewrite pad_length; exact EN.
  - cbn [set_layouts set_outputs add_zero add_shred b_ranges]. rewrite B2. intros; now left.
  - cbn [set_layouts set_outputs add_zero add_shred b_manifest In]. intros t nv0 [E|E]; [discriminate|]. exact (Pb _ _ E).
Qed.

(** ** Pooling *)

Lemma fold_insert_tail ds st k : ~ In k (map fst ds) ->
  sget (w_shreds (fold_left (fun st d => insert_shred (fst d) (snd d) st) ds st)) k = sget (w_shreds st) k.
Proof.
  revert st. induction ds as [|(a, v) ds IH]; intros st H; [reflexivity|]. cbn [fold_left map fst snd] in *. rewrite IH by (intros F; apply H; now right).
  cbn. rewrite shred_neq; [reflexivity|]. intros ->. apply H. now left.
Qed.
Lemma fold_insert_in ds st k v : NoDup (map fst ds) -> In (k, v) ds ->
  sget (w_shreds (fold_left (fun st d => insert_shred (fst d) (snd d) st) ds st)) k = Some v.
Proof.
  revert st. induction ds as [|(a, u) ds IH]; intros st N H; [easy|]. cbn [fold_left map fst snd] in *. inversion N; subst. destruct H as [H|H].
  - injection H as -> ->. rewrite fold_insert_tail by auto. cbn. now rewrite shred_eqb_refl.
  - now apply IH.
Qed.
Lemma fold_insert_rest (ds : list (shred * list Z)) st : let st' := fold_left (fun st d => insert_shred (fst d) (snd d) st) ds st in
  w_tensors st' = w_tensors st /\ w_layouts st' = w_layouts st /\ w_observed st' = w_observed st.
Proof. revert st. induction ds as [|d ds IH]; intros st; [cbn; auto|]. cbn. destruct (IH (insert_shred (fst d) (snd d) st)) as (? & ? & ?). auto. Qed.

Lemma ranges_inv w ds : forall st st', for_each ds (fun d st => insert_range (fst d) (snd d) w st) st = Some st' -> NoDup (map fst ds) ->
  w_tensors st' = w_tensors st /\ w_layouts st' = w_layouts st /\ w_observed st' = w_observed st /\
  (forall t, (forall h k, t = SChunk h k -> ~ In k (map fst ds)) -> sget (w_shreds st') t = sget (w_shreds st) t) /\
  (forall k v, In (k, v) ds -> (forall y, In y v -> in_width w y) /\
     ((CHUNK_BITS < w)%nat -> sget (w_shreds st') (SChunk false k) = Some (lows v) /\ sget (w_shreds st') (SChunk true k) = Some (highs v))).
Proof.
  induction ds as [|(k, v) ds IH]; intros st st' H N.
  - cbn in H. injection H as <-. repeat split; easy.
  - cbn [for_each fst snd] in H. inv_step H. cbn [map fst] in N. inversion N; subst.
    destruct (insert_range_rest _ _ _ _ _ E) as (P1 & P2 & P3 & P4 & P5). pose proof (proj1 (insert_range_inv _ _ _ _ _ E)) as R.
    destruct (IH _ _ H) as (Q1 & Q2 & Q3 & Q4 & Q5); auto.
    do 3 (split; [congruence|]). split.
    + intros t Ht. rewrite Q4, P4; [reflexivity| | |].
      * intros ->. apply (Ht true k eq_refl). now left.
      * intros ->. apply (Ht false k eq_refl). now left.
      * intros h k' -> F. apply (Ht h k' eq_refl). now right.
    + intros k' v' [F|F]; [|now apply Q5]. injection F as <- <-. split; [exact R|]. intros Hw.
      rewrite !Q4; [exact (P5 Hw)| |]; intros h k' E'; injection E' as _ <-; assumption.
Qed.

Lemma fold_shreds_manifest nv l : forall b, let b' := fold_left (fun b s => add_shred s nv Committed b) l b in
  b_manifest b' = (rev (map (fun s => (s, (nv, Committed))) l) ++ b_manifest b)%list /\ b_nv b' = b_nv b.
Proof.
  induction l as [|a l IH]; intros b; [cbn; auto|]. cbn. destruct (IH (add_shred a nv Committed b)) as (H1 & H2). rewrite H1, H2. cbn.
  now rewrite <- app_assoc.
Qed.
Lemma fold_zero_nv {A} (f : A -> sector) l : forall b, b_nv (fold_left (fun b x => add_zero (f x) b) l b) = b_nv b.
Proof. induction l as [|a l IH]; intros b; [reflexivity|]. cbn. now rewrite IH. Qed.
Lemma fold_ranges_more (l : list shred) nv w : forall b, let b' := fold_left (fun b s => add_range s (NShred s nv) w nv b) l b in
  b_nv b' = b_nv b /\ b_manifest b' = b_manifest b.
Proof. induction l as [|a l IH]; intros b; [cbn; auto|]. cbn. destruct (IH (add_range a (NShred a nv) w nv b)) as (? & ?). auto. Qed.

Lemma prod_holds nv (vals : shred -> list Z) s0 ss :
  (forall s, In s (s0 :: ss) -> wenv s = Some (vals s) /\ List.length (vals s) = (2 ^ nv)%nat) ->
  (forall i, (i < 2 ^ nv)%nat -> exists s, In s (s0 :: ss) /\ at_ (vals s) i = 0) ->
  holds p wenv (Zero (EProd (map (fun s => NShred s nv) (s0 :: ss)))) = true.
Proof.
  intros H Z0.
  assert (Q : exists v, eval_prod wenv (map (fun s => NShred s nv) (s0 :: ss)) = Some v /\ List.length v = (2 ^ nv)%nat /\
     forall i, (i < 2 ^ nv)%nat -> (exists s, In s (s0 :: ss) /\ at_ (vals s) i = 0) -> at_ v i = 0).
  { clear Z0. revert s0 H. induction ss as [|s1 ss IH]; intros s0 H.
    - destruct (H s0 (or_introl eq_refl)) as (E & L). exists (vals s0). cbn [map eval_prod]. split; [now apply shred_eval|]. split; [exact L|].
      intros i Hi (s & [<-|[]] & Hs). exact Hs.
    - destruct (IH s1) as (v & Ev & Lv & Av); [intros; apply H; now right|].
      destruct (H s0 (or_introl eq_refl)) as (E & L).
      destruct (zip_with_some Z.mul (vals s0) v ltac:(lia)) as (r & Er). destruct (zip_with_inv _ _ _ _ Er) as (_ & Lr & Ar).
      exists r. split; [|split; [lia|]].
      + cbn [map] in Ev |- *. cbn [eval_prod] in Ev |- *. rewrite (shred_eval wenv s0 nv (vals s0)) by auto. cbn [obind]. rewrite Ev. exact Er.
      + intros i Hi (s & Hs & Hz). rewrite Ar by lia. destruct Hs as [<-|Hs]; [rewrite Hz; ring|]. rewrite Av; [ring|auto|eauto]. }
  destruct Q as (v & Ev & Lv & Av). apply holds_zero_intro with v; [exact Ev|]. intros i Hi. apply Av; [lia|]. apply Z0. lia.
Qed.

Lemma at_i64 v i : Forall i64 v -> i64 (at_ v i).
Proof.
  intros F. unfold at_. destruct (Nat.lt_ge_cases i (List.length v)) as [H|H].
  - rewrite Forall_forall in F. apply F. now apply nth_In.
  - rewrite nth_overflow by auto. unfold i64. lia.
Qed.
Lemma Forall_at (P : Z -> Prop) v : (forall i, (i < List.length v)%nat -> P (at_ v i)) -> Forall P v.
Proof. intros H. apply Forall_forall. intros x Hx. apply In_nth with (d := 0) in Hx. destruct Hx as (i & Hi & <-). now apply H. Qed.

Lemma honest_maxpool l bits ws ws' b b' s : let l' := mkLayer (l_name l) (l_op l) (l_inputs l) (l_outputs l) (l_shape l) (Some bits)
      (l_weights l) (l_transA l) (l_transB l) (l_kernel l) (l_pads l) (l_strides l) (l_perm l) in
  build_maxpool (apply_observed o m) l' b = Some b' -> witness_maxpool m l ws = Some ws' -> l_op l = MaxPool ->
  hget (w_observed ws') (l_name l) = Some bits ->
  tracked ws b s -> same_layouts ws b s ->
  (forall t, owned (l_name l) t -> sget W t = sget (w_shreds ws') t) ->
  (forall h t, owned (l_name l) t -> sget W (SChunk h t) = sget (w_shreds ws') (SChunk h t)) ->
  (forall e, In e (b_manifest b') -> sget man (fst e) <> None) ->
  (exists ts, width_tables (delta_table_nv bits (m_exponent m)) = Some ts /\ incl ts T) ->
  exists s', public_layer l s = Some s' /\ step l ws b s ws' b' s'.
Proof.
  intros l' B Wt Eop Ebits Tr SL HW HC HM (ts & Ets & Hts).
  unfold witness_maxpool in Wt. inv_step Wt. rename a into x, E into Ex. inv_step Wt. rename a into data, E into Ed.
  inv_step Wt. rename a into lay, E into Elay. inv_step Wt. rename a into g, E into Eg.
  inv_step Wt. destruct a as (maxes, elems). rename E into Eloop. inv_step Wt. rename a into deltas, E into Edel.
  inv_step Wt. rename a into st2, E into Est2. injection Wt as <-.
  set (nv := nvars (p_out g)) in *. change (pow2_for (p_out g)) with (2 ^ nv)%nat in *. set (win := p_window g) in *.
  set (ds := combine (map (SDelta (l_name l)) (seq 0 win)) deltas) in *.
  assert (Hwin : (0 < win)%nat).
  { destruct (pool_geometry_inv _ _ _ Eg) as (ph & pw & _ & P1 & P2 & _ & _ & _ & _ & ->). unfold win, p_window. cbn. nia. }
  (* the loop *)
  rewrite (for_each_ext _ (loop_step _ (pool_dest g) (pool_src g lay) data win)) in Eloop by (intros ((?, ?), ?) ?; reflexivity).
  destruct (loop_inv _ _ _ _ _ _ _ _ _ Eloop (pool_nodup g)) as (Lm & Le & Gat & Mx & Mz).
  assert (Gat' : forall i, (i < win)%nat -> gather (pool_wiring g lay (i / p_w g) (i mod p_w g)) data (2 ^ nv) = Some (nth i elems [])).
  { intros i Hi. rewrite pool_wiring_positions. now apply Gat. }
  assert (NDw : forall i, NoDup (map fst (pool_wiring g lay (i / p_w g) (i mod p_w g)))).
  { intros i. rewrite pool_wiring_positions, map_map. apply pool_nodup. }
  apply omap_some in Edel. rewrite Le in Edel. destruct Edel as (Ld & Edel).
  assert (Del : forall i, (i < win)%nat -> zip_with Z.sub maxes (nth i elems []) = Some (nth i deltas []) /\ List.length (nth i deltas []) = (2 ^ nv)%nat).
  { intros i Hi. specialize (Edel i [] [] Hi). destruct (gather_inv _ _ _ _ (Gat' i Hi) (NDw i)) as (Lg & _ & _).
    destruct (checked_zip_inv _ _ _ _ Edel ltac:(lia)) as (Ez & _ & Lz). split; [exact Ez|lia]. }
  (* the shreds *)
  assert (Fds : map fst ds = map (SDelta (l_name l)) (seq 0 win)).
  { unfold ds. clear - Ld. revert deltas Ld. generalize 0%nat. induction win as [|w IH]; intros z [|d ds] L; try discriminate; [reflexivity|].
    cbn. f_equal. apply IH. cbn in L. lia. }
  assert (NDd : NoDup (map fst ds)).
  { rewrite Fds. apply NoDup_map_inj; [apply seq_NoDup|]. intros. congruence. }
  assert (Ids : forall i, (i < win)%nat -> In (SDelta (l_name l) i, nth i deltas []) ds).
  { intros i Hi. unfold ds. 
    assert (Q : nth i (combine (map (SDelta (l_name l)) (seq 0 win)) deltas) (SExpected, []) = (SDelta (l_name l) i, nth i deltas [])).
    { rewrite combine_nth by (rewrite map_length, seq_length; lia). f_equal.
      rewrite (nth_indep _ _ (SDelta (l_name l) 0)) by (rewrite map_length, seq_length; lia). rewrite map_nth, seq_nth by lia. reflexivity. }
    rewrite <- Q. apply nth_In. rewrite combine_length, map_length, seq_length. lia. }
  destruct (ranges_inv _ _ _ _ Est2 NDd) as (Q1 & Q2 & Q3 & Q4 & Q5).
  destruct (fold_insert_rest ds (insert_shred (SLayer (l_name l) "max") maxes ws)) as (F1 & F2 & F3).
  cbn [insert_layouts insert_tensors w_observed] in Ebits. rewrite Q3 in Ebits. cbn [insert_observed w_observed hput hget] in Ebits.
  rewrite String.eqb_refl in Ebits. injection Ebits as Ebits.
  set (bits' := observed_n_bits_for_delta _ _) in *. rewrite Ebits in *.
  (* the builder *)
  destruct (SL x) as (SL1 & SL2). rewrite Elay in SL1. symmetry in SL1. rewrite SL1 in SL2.
  pose proof (Tr x) as Hx. rewrite Ed in Hx. destruct Hx as (Fd & xin & nv0 & N1 & N2 & N3 & N4 & N5).
  unfold build_maxpool in B. change (l_inputs l') with (l_inputs l) in B. change (l_name l') with (l_name l) in B.
  change (l_bits l') with (Some bits) in B. change (l_outputs l') with (l_outputs l) in B.
  rewrite Ex in B. cbn [obind] in B. rewrite SL1 in B. cbn [obind] in B. change (pool_geometry l' lay) with (pool_geometry l lay) in B.
  rewrite Eg in B. cbn [obind] in B. rewrite N1 in B. cbn [obind] in B. fold nv win in B.
  set (sds := map (SDelta (l_name l)) (seq 0 win)) in *.
  assert (Ecomb : combine sds (pool_wirings g lay) = map (fun i => (SDelta (l_name l) i, pool_wiring g lay (i / p_w g) (i mod p_w g))) (seq 0 win)).
  { apply combine_map_seq. }
  rewrite Ecomb in B.
  set (b1 := fold_left (fun b s => add_shred s nv Committed b) sds _) in B.
  set (b2 := fold_left _ (map _ (seq 0 win)) b1) in B.
  set (b4 := fold_left _ sds (add_zero _ b2)) in B.
  injection B as <-.
  assert (X : b_nodes b1 = b_nodes b /\ b_ranges b1 = b_ranges b /\ b_layouts b1 = b_layouts b /\ b_checks b1 = b_checks b).
  { exact (fold_shreds (fun t => t) nv sds (add_shred (SLayer (l_name l) "max") nv Committed b)). }
  assert (X' : b_manifest b1 = (rev (map (fun t => (t, (nv, Committed))) sds) ++ (SLayer (l_name l) "max", (nv, Committed)) :: b_manifest b)%list /\ b_nv b1 = b_nv b).
  { exact (fold_shreds_manifest nv sds (add_shred (SLayer (l_name l) "max") nv Committed b)). }
  destruct X as (X1 & X2 & X3 & X4), X' as (X5 & X6).
  assert (Y : b_nodes b2 = b_nodes b1 /\ b_ranges b2 = b_ranges b1 /\ b_layouts b2 = b_layouts b1 /\ b_manifest b2 = b_manifest b1).
  { exact (fold_zero_rest (fun sg => ESub (ESub (ENode (NShred (SLayer (l_name l) "max") nv)) (ENode (NGate xin (snd sg) nv))) (ENode (NShred (fst sg) nv)))
     (map (fun i => (SDelta (l_name l) i, pool_wiring g lay (i / p_w g) (i mod p_w g))) (seq 0 win)) b1). }
  destruct Y as (Y1 & Y2 & Y3 & Y4).
  assert (Y5 : b_checks b2 = (rev (map (fun sg => Zero (ESub (ESub (ENode (NShred (SLayer (l_name l) "max") nv)) (ENode (NGate xin (snd sg) nv))) (ENode (NShred (fst sg) nv))))
     (map (fun i => (SDelta (l_name l) i, pool_wiring g lay (i / p_w g) (i mod p_w g))) (seq 0 win))) ++ b_checks b1)%list).
  { exact (fold_checks (fun sg => ESub (ESub (ENode (NShred (SLayer (l_name l) "max") nv)) (ENode (NGate xin (snd sg) nv))) (ENode (NShred (fst sg) nv)))
     (map (fun i => (SDelta (l_name l) i, pool_wiring g lay (i / p_w g) (i mod p_w g))) (seq 0 win)) b1). }
  assert (Y6 : b_nv b2 = b_nv b1).
  { exact (fold_zero_nv (fun sg => ESub (ESub (ENode (NShred (SLayer (l_name l) "max") nv)) (ENode (NGate xin (snd sg) nv))) (ENode (NShred (fst sg) nv)))
     (map (fun i => (SDelta (l_name l) i, pool_wiring g lay (i / p_w g) (i mod p_w g))) (seq 0 win)) b1). }
  assert (Z : b_nodes b4 = b_nodes b2 /\ b_layouts b4 = b_layouts b2 /\ b_checks b4 = Zero (EProd (map (fun t => NShred t nv) sds)) :: b_checks b2 /\
    b_ranges b4 = (rev (map (fun t => (t, NShred t nv, delta_table_nv bits (m_exponent m), nv)) sds) ++ b_ranges b2)%list).
  { exact (fold_ranges sds nv (delta_table_nv bits (m_exponent m)) (add_zero (EProd (map (fun t => NShred t nv) sds)) b2)). }
  assert (Z' : b_nv b4 = b_nv b2 /\ b_manifest b4 = b_manifest b2).
  { exact (fold_ranges_more sds nv (delta_table_nv bits (m_exponent m)) (add_zero (EProd (map (fun t => NShred t nv) sds)) b2)). }
  destruct Z as (Z1 & Z2 & Z3 & Z4), Z' as (Z5 & Z6). clearbody b4 b2 b1.
  cbn [set_layouts set_outputs b_manifest] in HM. rewrite Z6, Y4, X5 in HM.
  assert (Wmax : wenv (SLayer (l_name l) "max") = Some maxes).
  { unfold wenv. rewrite HW by reflexivity. cbn [insert_layouts insert_tensors w_shreds]. rewrite Q4 by discriminate. cbn [insert_observed w_shreds].
    rewrite fold_insert_tail by (rewrite Fds; intros F; apply in_map_iff in F; destruct F as (? & ? & _); discriminate).
    cbn [insert_shred w_shreds sget]. rewrite shred_eqb_refl.
    assert (M : sget man (SLayer (l_name l) "max") <> None) by (apply (HM (_, (nv, Committed))); apply in_or_app; right; now left).
    destruct (sget man _); [reflexivity|congruence]. }
  assert (Wdel : forall i, (i < win)%nat -> wenv (SDelta (l_name l) i) = Some (nth i deltas [])).
  { intros i Hi. unfold wenv. rewrite HW by reflexivity. cbn [insert_layouts insert_tensors w_shreds]. rewrite Q4 by discriminate. cbn [insert_observed w_shreds].
    rewrite (fold_insert_in _ _ _ _ NDd (Ids i Hi)).
    assert (M : sget man (SDelta (l_name l) i) <> None).
    { apply (HM (_, (nv, Committed))). apply in_or_app. left. apply in_rev. rewrite rev_involutive. apply in_map_iff. exists (SDelta (l_name l) i).
      split; [reflexivity|]. apply in_map. apply in_seq. lia. }
    destruct (sget man _); [reflexivity|congruence]. }
  assert (Att : forall d, (d < 2 ^ nv)%nat -> i64 (at_ maxes d) /\ exists i, (i < win)%nat /\ at_ (nth i deltas []) d = 0).
  { intros d Hd.
    assert (Dd : forall i, (i < win)%nat -> at_ (nth i deltas []) d = at_ maxes d - gate data (pool_wiring g lay (i / p_w g) (i mod p_w g)) d).
    { intros i Hi. destruct (Del i Hi) as (Ez & _). destruct (zip_with_inv _ _ _ _ Ez) as (_ & _ & Az).
      destruct (gather_inv _ _ _ _ (Gat' i Hi) (NDw i)) as (_ & _ & Ag). rewrite Az by lia. now rewrite Ag. }
    destruct (in_dec Nat.eq_dec d (map (pool_dest g) (pool_positions g))) as [I|I].
    - apply in_map_iff in I. destruct I as (q & <- & Hq).
      assert (V : In (at_ maxes (pool_dest g q)) (map (fun i => at_ data (pool_src g lay q i)) (seq 0 win))).
      { rewrite Mx by auto. apply fold_max_attained.
        - intros v Hv. apply in_map_iff in Hv. destruct Hv as (i & <- & _). apply (at_i64 data (pool_src g lay q i)) in Fd. unfold i64 in Fd. lia.
        - destruct win; [lia|discriminate]. }
      apply in_map_iff in V. destruct V as (i & Ei & Hi). apply in_seq in Hi. split; [rewrite <- Ei; now apply at_i64|].
      exists i. split; [lia|]. rewrite Dd by lia. destruct q as ((ch, oh), ow). apply pool_positions_in in Hq. cbn [pool_dest pool_src] in *.
      rewrite pool_gate by lia. lia.
    - rewrite (Mz d I). split; [unfold i64; lia|]. exists 0%nat. split; [lia|]. rewrite Dd, Mz by auto.
      replace (gate data _ d) with 0; [reflexivity|]. symmetry. unfold gate. rewrite filter_none; [reflexivity|].
      intros (d1, s1) Hin. cbn. destruct (Nat.eqb_spec d1 d) as [->|]; [|reflexivity]. exfalso. apply I.
      rewrite pool_wiring_positions in Hin. apply in_map_iff in Hin. destruct Hin as (q & E & Hq). injection E as <- <-. now apply in_map. }
  eexists. split; [unfold public_layer; rewrite Eop, Ex; cbn [obind]; rewrite SL2; cbn [obind]; rewrite Eg; reflexivity|].
  constructor.
  - apply (tracked_put ws b s _ _ _ (l_outputs l) (NShred (SLayer (l_name l) "max") nv) nv maxes); auto.
    + apply Forall_at. intros i Hi. apply Att. lia.
    + now apply shred_eval.
    + cbn [insert_layouts insert_tensors w_tensors]. rewrite Q1. cbn [insert_observed w_tensors]. now rewrite F1.
    + cbn [set_layouts set_outputs b_nodes]. now rewrite Z1, Y1, X1.
    + cbn [set_layouts set_outputs b_nv]. now rewrite Z5, Y6, X6.
  - intros _ _. eapply (layouts_put ws b s _ _ _ (l_outputs l) (Some _) SL).
    + cbn [insert_layouts insert_tensors w_layouts]. rewrite Q2. cbn [insert_observed w_layouts]. now rewrite F2.
    + cbn [set_layouts set_outputs b_layouts]. now rewrite Z2, Y3, X3.
    + reflexivity.
  - cbn [set_layouts set_outputs b_checks]. rewrite Z3, Y5, X4. intros c [<-|Hc].
    + right. unfold sds. destruct win as [|k] eqn:Ek; [lia|]. cbn [seq map]. 
      apply (prod_holds nv (fun t => match t with SDelta _ i => nth i deltas [] | _ => [] end) (SDelta (l_name l) 0) (map (SDelta (l_name l)) (seq 1 k))).
      * intros t Ht. change (In t (map (SDelta (l_name l)) (seq 0 (S k)))) in Ht. apply in_map_iff in Ht. destruct Ht as (i & <- & Hi). apply in_seq in Hi.
        split; [apply Wdel; lia|apply Del; lia].
      * intros i Hi. destruct (Att i Hi) as (_ & j & Hj & Ej). exists (SDelta (l_name l) j). split; [|exact Ej].
        change (In (SDelta (l_name l) j) (map (SDelta (l_name l)) (seq 0 (S k)))). apply in_map. apply in_seq. lia.
    + apply in_app_or in Hc. destruct Hc as [Hc|Hc]; [right|now left]. apply in_rev in Hc. apply in_map_iff in Hc. destruct Hc as (sg & <- & Hsg).
      apply in_map_iff in Hsg. destruct Hsg as (i & <- & Hi). apply in_seq in Hi. cbn [fst snd].
      destruct (Del i ltac:(lia)) as (Ez & Lz).
      apply sub_sub_holds with maxes (nth i elems []) (nth i deltas []); auto; cbn [eval_sector].
      * now apply shred_eval.
      * apply (gather_eval wenv xin _ nv data); auto. apply Gat'. lia.
      * apply shred_eval; auto. apply Wdel. lia.
  - cbn [set_layouts set_outputs b_ranges]. rewrite Z4. intros rc Hrc. apply in_app_or in Hrc. destruct Hrc as [Hrc|Hrc]; [right|left; now rewrite Y2, X2 in Hrc].
    apply in_rev in Hrc. apply in_map_iff in Hrc. destruct Hrc as (t & <- & Ht). apply in_map_iff in Ht. destruct Ht as (i & <- & Hi). apply in_seq in Hi.
    destruct (Q5 _ _ (Ids i ltac:(lia))) as (R1 & R2). destruct (Del i ltac:(lia)) as (_ & Lz).
    exists (nth i deltas []), ts. split; [apply shred_eval; auto; apply Wdel; lia|]. split; [exact Lz|]. split; [exact R1|]. split; [exact Ets|]. split; [exact Hts|].
    intros Hc. rewrite !HC by reflexivity. exact (R2 Hc).
  - cbn [set_layouts set_outputs b_manifest]. rewrite Z6, Y4, X5. intros t nv' Hin. apply in_app_or in Hin. destruct Hin as [Hin|[Hin|Hin]].
    + exfalso. apply in_rev in Hin. apply in_map_iff in Hin. destruct Hin as (? & E & _). discriminate.
    + discriminate.
    + now left.
Qed.
End Layer.
