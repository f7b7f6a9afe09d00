(** Accepted proofs of perceptrons. *)
From Coq Require Import ZArith Znumtheory List Bool Lia String.
From Verif Require Import Base.Array Base.Machine Spec.Numbers Spec.Remainder Spec.RemainderCircuit Model.Remainder.
From Verif Require Import Proofs.RemainderArith Proofs.RemainderBuild Proofs.RemainderPublic Proofs.RemainderSound Proofs.RemainderLayers.
Import ListNotations.
Local Open Scope Z_scope.

Lemma entry_at l i : entry l i = at_ l i. Proof. reflexivity. Qed.

Lemma entry_i64 l i : (forall v, In v l -> i64 v) -> i64 (entry l i).
Proof.
  intros H. unfold entry. destruct (Nat.lt_ge_cases i (List.length l)).
  - apply H. now apply nth_In.
  - rewrite nth_overflow by auto. unfold i64. lia.
Qed.

Lemma zsum_bound {A} (f : A -> Z) l B : 0 <= B -> (forall x, In x l -> Z.abs (f x) <= B) ->
  Z.abs (zsum (map f l)) <= Z.of_nat (List.length l) * B.
Proof.
  intros HB H. induction l as [|a l IH]; [cbn; lia|]. cbn [map zsum fold_right List.length].
  change (fold_right Z.add 0 (map f l)) with (zsum (map f l)).
  specialize (IH ltac:(intros; apply H; now right)). specialize (H a ltac:(now left)). lia.
Qed.

Lemma zsum_cong p {A} (f g : A -> Z) l : 0 < p -> (forall x, In x l -> exists k, f x = g x + k * p) ->
  exists k, zsum (map f l) = zsum (map g l) + k * p.
Proof.
  intros Hp H. induction l as [|a l IH]; [exists 0; cbn; lia|].
  destruct IH as (k1 & E1); [intros; apply H; now right|]. destruct (H a ltac:(now left)) as (k2 & E2).
  exists (k1 + k2). cbn [map zsum fold_right]. 
  change (fold_right Z.add 0 (map f l)) with (zsum (map f l)). change (fold_right Z.add 0 (map g l)) with (zsum (map g l)). lia.
Qed.

Lemma dense_dims_in b rows cols : In (fst (dense_dims b rows cols)) [rows; cols] /\ In (snd (dense_dims b rows cols)) [rows; cols].
Proof. unfold dense_dims. destruct b; cbn; auto. Qed.

Lemma gemm_parts p m pf input k l : verify p m pf input = true -> layer_at m k l -> l_op l = Gemm ->
  exists x wn rows cols rest data, aget (l_inputs l) 0 = Some x /\ aget (l_inputs l) 1 = Some wn /\
    hget (l_weights l) wn = Some (rows :: cols :: rest, data).
Proof.
  intros V L Hop. destruct (around_verify _ _ _ _ _ _ V L) as (env & b1 & b2 & s1 & s2 & A).
  pose proof (ar_build _ _ _ _ _ _ _ _ _ _ _ A) as B. destruct (obs_same (pf_observed pf) l) as (En & Eop & Ei & Eo & _ & Ew & _).
  unfold build_layer in B. rewrite Eop, Hop in B. unfold build_gemm in B. rewrite Ei in B.
  inv_step B. rewrite Ew in B. inv_step B. inv_step B. inv_step B. inv_step B. unfold gemm_dims in E2.
  destruct a1 as ([|rows [|cols rest]], data); try discriminate.
  exists a, a0, rows, cols, rest, data. auto.
Qed.

(** The tensor is known: its entries stand for the integers of [xs], bounded by
    64 bits, zero beyond. *)
Definition known (p : Z) (v X : list Z) : Prop :=
  List.length v = pow2_for (List.length X) /\ (forall i, i64 (entry X i)) /\
  forall i, (i < List.length v)%nat -> signed p (at_ v i) = entry X i.

Lemma known_cong p v X i : 0 < p -> (i < List.length v)%nat -> known p v X -> exists k, at_ v i = entry X i + k * p.
Proof.
  intros Hp Hi (_ & _ & H). destruct (signed_spec p (at_ v i) Hp) as (k & E & _). rewrite H in E by auto. exists (- k). lia.
Qed.

Section Net.
Variables (p : Z) (m : model) (pf : proof) (input : list Z).
Hypothesis Hprime : prime p.
Hypothesis Hbig : 2 ^ 200 < p.
Hypothesis Halpha : m_alpha m = 2 ^ Z.of_nat (m_exponent m).
Hypothesis V : verify p m pf input = true.
Hypothesis ND : NoDup (map l_name (m_layers m)).
Hypothesis WO : forall l, In l (m_layers m) -> weights_ok l.

Lemma p_pos : 0 < p.
Proof. assert (0 <= 2 ^ 200) by (apply Z.pow_nonneg; lia). lia. Qed.

(** A dense layer determines every quotient that is small. *)
Lemma dense_value k l x y X v : nth_error (m_layers m) k = Some l -> l_op l = Gemm ->
  aget (l_inputs l) 0 = Some x -> l_outputs l = [y] -> tensor_value m pf input k x = Some v -> known p v X ->
  exists Y w, dense (m_alpha m) l X = Some Y /\ tensor_value m pf input (S k) y = Some w /\
    List.length w = pow2_for (List.length Y) /\
    forall j, (j < List.length w)%nat -> Z.abs (signed p (at_ w j)) < 2 ^ 100 -> signed p (at_ w j) = entry Y j.
Proof.
  intros N Hop Hx Hy Hv HK. pose proof p_pos as Hp.
  assert (L : layer_at m k l) by (split; auto).
  destruct (gemm_parts _ _ _ _ _ _ V L Hop) as (x' & wn & rows & cols & rest & data & Hx' & Hwn & Hw).
  rewrite Hx in Hx'. injection Hx' as <-.
  destruct (WO l ltac:(eapply nth_error_In; eauto) _ _ _ Hw) as (Wd & Ws & Wb).
  specialize (Wb Hop _ _ _ Hwn eq_refl).
  pose proof (gemm_sound p m pf input k l x wn rows cols rest data y Hp V L Hop Hx Hwn Hw ltac:(rewrite Hy; now left)) as G.
  destruct (dense_dims_in (l_transB l) rows cols) as (DK & DN).
  unfold dense. unfold aget in Hwn. rewrite Hwn, Hw. destruct (dense_dims (l_transB l) rows cols) as (K, M). cbn [fst snd] in *.
  destruct G as (Hexp & _ & xs & ys & Exs & Eys & L1 & L2 & HG). rewrite Hv in Exs. injection Exs as <-.
  assert (HKb : Z.of_nat K <= 2 ^ 63). { apply Ws. destruct DK as [<-|[<-|[]]]; cbn; auto. }
  eexists. exists ys. split; [reflexivity|]. split; [exact Eys|]. rewrite map_length, seq_length. split; [exact L2|].
  intros j Hj Hsm. destruct (HG j Hj) as (r & Wr & Cr). unfold in_width in Wr.
  pose proof HK as (LK & BK & _).
  set (W := dense_weight (l_transB l) cols data) in *.
  assert (BW : forall i j, i64 (W i j)).
  { intros i0 j0. unfold W, dense_weight, matrix_entry. destruct (l_transB l); apply entry_i64; auto. }
  assert (Bb : i64 (entry (bias_vector l) j)).
  { apply entry_i64. unfold bias_vector. destruct (nth_error (l_inputs l) 2) as [bn|]; [|easy].
    destruct (hget (l_weights l) bn) as [(sh, bd)|] eqn:Ebn; [|easy].
    apply (WO l ltac:(eapply nth_error_In; eauto) _ _ _ Ebn). }
  set (S0 := if (j <? M)%nat then dense_sum W K X j else 0).
  assert (CS : exists q, (if (j <? M)%nat then dense_sum W K v j else 0) = S0 + q * p).
  { unfold S0. destruct (j <? M)%nat; [|exists 0; lia]. unfold dense_sum. apply (zsum_cong p); [exact Hp|].
    intros i Hi. apply in_seq in Hi. destruct (known_cong p v X i Hp) as (q & Eq); auto.
    { rewrite L1. pose proof (le_pow2_for K). lia. }
    rewrite !entry_at in *. rewrite Eq. exists (q * W i j). rewrite entry_at. ring. }
  assert (BS : Z.abs S0 <= 2 ^ 190).
  { unfold S0. destruct (j <? M)%nat; [|apply Z.pow_nonneg; lia]. unfold dense_sum.
    eapply Z.le_trans; [apply (zsum_bound _ _ (2 ^ 126)); [apply Z.pow_nonneg; lia|]|].
    - intros i _. specialize (BK i). specialize (BW i j). unfold i64 in *. rewrite Z.abs_mul.
      change (2 ^ 126) with (2 ^ 63 * 2 ^ 63). apply Z.mul_le_mono_nonneg; lia.
    - rewrite seq_length. change (2 ^ 190) with (2 ^ 64 * 2 ^ 126). apply Z.mul_le_mono_nonneg_r; [apply Z.pow_nonneg; lia|lia]. }
  destruct CS as (q & CS). apply mod_sub_cong in Cr; [|exact Hp]. destruct Cr as (c & Cr).
  destruct (signed_spec p (at_ ys j) Hp) as (d & Ed & _).
  set (Yj := signed p (at_ ys j)) in *. set (a := m_alpha m) in *. set (b := entry (bias_vector l) j) in *.
  assert (Ha : 0 < a <= 2 ^ 18).
  { rewrite Halpha. split; [apply Z.pow_pos_nonneg; lia|apply Z.pow_le_mono_r; lia]. }
  rewrite <- Halpha in Wr.
  assert (EQ : a * Yj + r - (S0 + b) = (a * d + q + c) * p) by (rewrite Ed; lia).
  assert (BQ : Z.abs (a * Yj + r - (S0 + b)) < p).
  { assert (Z.abs (a * Yj) <= 2 ^ 18 * 2 ^ 100) by (rewrite Z.abs_mul; apply Z.mul_le_mono_nonneg; lia).
    assert (B1 : 2 ^ 18 * 2 ^ 100 + 2 ^ 18 + 2 ^ 190 + 2 ^ 63 < 2 ^ 200) by (vm_compute; reflexivity).
    unfold i64 in Bb. change (- 2 ^ 63) with (- (2 ^ 63)) in Bb. lia. }
  assert (Z0 : a * Yj + r - (S0 + b) = 0).
  { destruct (Z.eq_dec (a * d + q + c) 0) as [E0|E0]; [rewrite EQ, E0; ring|].
    exfalso. rewrite EQ in BQ. rewrite Z.abs_mul in BQ. assert (1 <= Z.abs (a * d + q + c)) by lia. nia. }
  assert (R : Yj = (S0 + b) / a) by (apply Z.div_unique with r; lia).
  rewrite R. unfold S0, b. destruct (Nat.ltb_spec j M) as [Hm|Hm].
  - symmetry. rewrite entry_at. now apply at_map_seq.
  - unfold entry. rewrite (nth_overflow (map _ _)) by (now rewrite map_length, seq_length).
    rewrite (nth_overflow (bias_vector l)) by lia. apply Z.div_small. lia.
Qed.

Lemma relu_known k l x y X v w : nth_error (m_layers m) k = Some l -> l_op l = Relu -> l_bits l <> None ->
  aget (l_inputs l) 0 = Some x -> l_outputs l = [y] -> tensor_value m pf input k x = Some v ->
  List.length v = pow2_for (List.length X) ->
  (forall i, (i < List.length v)%nat -> Z.abs (signed p (at_ v i)) < 2 ^ 100 -> signed p (at_ v i) = entry X i) ->
  tensor_value m pf input (S k) y = Some w ->
  known p w (map relu X).
Proof.
  intros N Hop Hb Hx Hy Hv LX HX Hw. pose proof p_pos as Hp.
  assert (Hp20 : 2 ^ 20 < p) by (assert (2 ^ 20 < 2 ^ 200) by (vm_compute; reflexivity); lia).
  destruct (relu_sound p m pf input k l x y Hprime Hp20 V (conj N ND) Hop (or_introl Hb) Hx ltac:(rewrite Hy; now left))
    as (xs & ys & E1 & E2 & L & H). rewrite Hv in E1. injection E1 as <-. rewrite Hw in E2. injection E2 as <-.
  assert (RX : forall i, entry (map relu X) i = relu (entry X i)).
  { intros i. unfold entry. change 0 with (relu 0) at 1. apply map_nth. }
  assert (BX : forall i, Z.abs (entry X i) < 2 ^ 18).
  { intros i. destruct (Nat.lt_ge_cases i (List.length v)) as [Hi|Hi].
    - destruct (H i Hi) as (_ & B). rewrite HX in B; auto. change (2 ^ 100) with (2 ^ 18 * 2 ^ 82). lia.
    - unfold entry. rewrite nth_overflow; [cbn; lia|]. pose proof (le_pow2_for (List.length X)). lia. }
  split; [rewrite map_length; lia|]. split.
  - intros i. rewrite RX. specialize (BX i). unfold relu, i64. destruct (Z.leb_spec 0 (entry X i)); lia.
  - intros i Hi. destruct (H i ltac:(lia)) as (E & B). rewrite E, RX. rewrite HX; auto; [lia|]. change (2 ^ 100) with (2 ^ 18 * 2 ^ 82). lia.
Qed.

Lemma relu_value_exists k l x y : nth_error (m_layers m) k = Some l -> l_op l = Relu -> l_bits l <> None ->
  aget (l_inputs l) 0 = Some x -> l_outputs l = [y] -> exists w, tensor_value m pf input (S k) y = Some w.
Proof.
  intros N Hop Hb Hx Hy.
  assert (Hp20 : 2 ^ 20 < p) by (assert (2 ^ 20 < 2 ^ 200) by (vm_compute; reflexivity); lia).
  destruct (relu_sound p m pf input k l x y Hprime Hp20 V (conj N ND) Hop (or_introl Hb) Hx ltac:(rewrite Hy; now left))
    as (xs & ys & E1 & E2 & _). eauto.
Qed.

Lemma nth_error_skip {A} (ls : list A) k l r : skipn k ls = l :: r -> nth_error ls k = Some l /\ skipn (S k) ls = r.
Proof.
  revert k. induction ls as [|a ls IH]; intros [|k] H; try discriminate.
  - cbn in H. injection H as -> ->. auto.
  - cbn in H. now apply IH in H.
Qed.

Lemma net_value o ls : forall k x X v, skipn k (m_layers m) = ls -> chained x ls o -> relu_guarded ls ->
  tensor_value m pf input k x = Some v -> known p v X ->
  exists Y w, infer (m_alpha m) ls X = Some Y /\ tensor_value m pf input (List.length (m_layers m)) o = Some w /\
    List.length w = pow2_for (List.length Y) /\
    forall j, (j < List.length w)%nat -> Z.abs (signed p (at_ w j)) < 2 ^ 100 -> signed p (at_ w j) = entry Y j.
Proof.
  remember (List.length ls) as n eqn:En. revert ls En. induction n as [n IH] using lt_wf_ind. intros ls En k x X v Hs Hc Hg Hv HK.
  destruct ls as [|l r].
  - cbn in Hc. subst x. assert (Hk : (List.length (m_layers m) <= k)%nat).
    { destruct (Nat.le_gt_cases (List.length (m_layers m)) k) as [H|H]; [exact H|].
      exfalso. pose proof (skipn_length k (m_layers m)) as SL. rewrite Hs in SL. cbn in SL. lia. }
    exists X, v. split; [reflexivity|]. destruct HK as (H1 & H2 & H3). split; [|split; auto].
    rewrite <- Hv. unfold tensor_value, state_after. rewrite !firstn_all2; [reflexivity| |]; rewrite obs_layers, map_length; lia.
  - destruct (nth_error_skip _ _ _ _ Hs) as (N & Hr). cbn [chained] in Hc. destruct Hc as (y & Hx & Hy & Hc).
    cbn [relu_guarded] in Hg. cbn [infer]. destruct (l_op l) eqn:Hop; try easy.
    + destruct (dense_value k l x y X v N Hop Hx Hy Hv HK) as (Y & w & ED & EW & LW & HW).
      rewrite ED. destruct r as [|l2 r2].
      * cbn in Hc. subst y. exists Y, w. split; [reflexivity|].
        assert (Hk : (List.length (m_layers m) <= S k)%nat).
        { destruct (Nat.le_gt_cases (List.length (m_layers m)) (S k)) as [H|H]; [exact H|].
          exfalso. pose proof (skipn_length (S k) (m_layers m)) as SL. rewrite Hr in SL. cbn [List.length] in SL. lia. }
        split; [|auto]. rewrite <- EW. unfold tensor_value, state_after. rewrite !firstn_all2; [reflexivity| |]; rewrite obs_layers, map_length; lia.
      * destruct Hg as (Hop2 & Hb2 & Hg). destruct (nth_error_skip _ _ _ _ Hr) as (N2 & Hr2).
        cbn [chained] in Hc. destruct Hc as (y2 & Hx2 & Hy2 & Hc).
        destruct (relu_value_exists (S k) l2 y y2 N2 Hop2 Hb2 Hx2 Hy2) as (w2 & EW2).
        pose proof (relu_known (S k) l2 y y2 Y w w2 N2 Hop2 Hb2 Hx2 Hy2 EW LW HW EW2) as K2.
        cbn [infer]. rewrite Hop2.
        apply (IH (List.length r2)) with (k := S (S k)) (x := y2) (v := w2); auto. cbn in En. lia.
    + destruct Hg as (Hb & Hg). destruct (relu_value_exists k l x y N Hop Hb Hx Hy) as (w & EW).
      assert (K2 : known p w (map relu X)).
      { apply (relu_known k l x y X v w N Hop Hb Hx Hy Hv); auto; destruct HK as (A & B & C); auto. }
      apply (IH (List.length r)) with (k := S k) (x := y) (v := w); auto. cbn in En. lia.
Qed.

End Net.

Lemma mlp_sound p m pf input x o : prime p -> 2 ^ 200 < p -> m_alpha m = 2 ^ Z.of_nat (m_exponent m) ->
  verify p m pf input = true -> NoDup (map l_name (m_layers m)) -> m_inputs m = [x] -> m_outputs m = [o] ->
  chained x (m_layers m) o -> relu_guarded (m_layers m) -> (forall l, In l (m_layers m) -> weights_ok l) ->
  (forall v, In v input -> i64 v) -> (forall v, In v (pf_expected pf) -> i64 v) ->
  exists ys, infer (m_alpha m) (m_layers m) input = Some ys /\
    pad_to_size (pf_expected pf) (pow2_for (List.length (pf_expected pf))) = pad_to_size ys (pow2_for (List.length ys)).
Proof.
  intros Pp Hb Ha V ND Hx Ho Hc Hg WO Hi He.
  assert (Hp : 0 < p) by (assert (0 <= 2 ^ 200) by (apply Z.pow_nonneg; lia); lia).
  assert (B1 : 2 ^ 64 < 2 ^ 200) by (vm_compute; reflexivity).
  pose proof (input_value p m pf input x V Hx) as EV.
  assert (K0 : known p (pad_to_size input (pow2_for (List.length input))) input).
  { split; [apply pad_length|]. split; [intros; now apply entry_i64|]. intros i _.
    rewrite at_pad by apply le_pow2_for. rewrite <- entry_at. apply signed_small.
    pose proof (entry_i64 input i Hi) as Q. unfold i64 in Q. lia. }
  destruct (net_value p m pf input Pp Hb Ha V ND WO o (m_layers m) 0 x input _ eq_refl Hc Hg EV K0) as (Y & w & EY & EW & LW & HW).
  destruct (output_value p m pf input o V Ho) as (w' & EW' & LW' & HE). rewrite EW in EW'. injection EW' as <-.
  exists Y. split; [exact EY|]. rewrite <- LW', LW.
  rewrite (list_as_map (pad_to_size (pf_expected pf) _)), (list_as_map (pad_to_size Y _)). rewrite !pad_length.
  apply map_ext_in. intros i Hi'. apply in_seq in Hi'.
  rewrite (at_pad Y) by apply le_pow2_for. rewrite (at_pad (pf_expected pf)) by (rewrite <- LW, LW'; apply le_pow2_for).
  assert (Es : signed p (at_ w i) = at_ (pf_expected pf) i).
  { apply signed_mod; [exact Hp|apply HE; lia|]. pose proof (entry_i64 _ i He) as Q. unfold i64 in Q. rewrite entry_at in Q. lia. }
  rewrite <- Es. apply HW; [lia|]. rewrite Es. pose proof (entry_i64 _ i He) as Q. unfold i64 in Q. rewrite entry_at in Q.
  change (2 ^ 100) with (2 ^ 63 * 2 ^ 37). lia.
Qed.
