(** What the honest prover computes. *)
From Coq Require Import ZArith Znumtheory List Bool Lia String.
From Verif Require Import Base.Array Base.Machine Base.Pocklington Spec.Numbers Spec.Remainder Spec.RemainderCircuit Spec.RemainderHonest
  Model.Remainder Model.RemainderWitness.
From Verif Require Import Proofs.RemainderArith Proofs.RemainderBuild Proofs.RemainderPublic Proofs.RemainderSound Proofs.RemainderLayers Proofs.RemainderMlp
  Proofs.RemainderImages Proofs.RemainderConv Proofs.RemainderNorm Proofs.RemainderHonest Proofs.RemainderHonestMain.
Import ListNotations.
Local Open Scope Z_scope.

Lemma accepted_honest p m input pf : provable m input -> honest_proof m input pf -> verify p m pf input = true.
Proof. intros (A & (B & C) & D & E & F & G) (w & H & I). now apply (honest_accepted p m input w pf). Qed.
Lemma honest_output m input pf o : provable m input -> honest_proof m input pf -> m_outputs m = [o] ->
  computed m input (List.length (m_layers m)) o = Some (pf_expected pf).
Proof. intros (A & (B & C) & D & E & F & G) (w & H & I). now apply (honest_accepted 1 m input w pf). Qed.
Lemma honest_value m input pf : provable m input -> honest_proof m input pf -> forall k y, tensor_value m pf input k y = computed m input k y.
Proof. intros (A & (B & C) & D & E & F & G) (w & H & I). now apply (honest_accepted 1 m input w pf). Qed.
Lemma honest_i64 m input pf : provable m input -> honest_proof m input pf -> forall k y v, computed m input k y = Some v -> Forall i64 v.
Proof. intros (A & (B & C) & D & E & F & G) (w & H & I). now apply (honest_accepted 1 m input w pf). Qed.

(** A congruence with a bounded remainder for every modulus is a division. *)
Lemma exact_quotient a e y S : a = 2 ^ Z.of_nat e -> (forall p, 0 < p -> exists r, in_width e r /\ (a * y + r - S) mod p = 0) -> y = S / a.
Proof.
  intros Ea H. assert (Pe : 0 < 2 ^ Z.of_nat e) by (apply Z.pow_pos_nonneg; lia).
  destruct (H (1 + Z.abs (a * y - S) + 2 ^ Z.of_nat e) ltac:(lia)) as (r & Hr & Hm). unfold in_width in Hr.
  apply Z.mod_divide in Hm; [|lia]. destruct Hm as (q & Hq).
  assert (Q : q = 0) by nia. subst q. apply Z.div_unique with r; lia.
Qed.

Lemma flat_map_ext_in' {A B} (f g : A -> list B) l : (forall x, In x l -> f x = g x) -> flat_map f l = flat_map g l.
Proof. induction l as [|a l IH]; intros H; [reflexivity|]. cbn. rewrite (H a) by now left. rewrite IH by (intros; apply H; now right). reflexivity. Qed.

Section Exact.
Variables (m : model) (input : list Z) (pf : proof).
Hypothesis HP : provable m input.
Hypothesis HF : honest_proof m input pf.
Hypothesis Halpha : m_alpha m = 2 ^ Z.of_nat (m_exponent m).

Lemma V p : verify p m pf input = true. Proof. now apply accepted_honest. Qed.
Lemma tv k y : tensor_value m pf input k y = computed m input k y. Proof. now apply honest_value. Qed.
Lemma lat k l : nth_error (m_layers m) k = Some l -> layer_at m k l. Proof. intros N. split; [exact N|apply HP]. Qed.

Lemma dense_exact k l x wn rows cols rest data o : nth_error (m_layers m) k = Some l -> l_op l = Gemm ->
  nth_error (l_inputs l) 0 = Some x -> nth_error (l_inputs l) 1 = Some wn -> hget (l_weights l) wn = Some (rows :: cols :: rest, data) -> In o (l_outputs l) ->
  let '(K, N) := dense_dims (l_transB l) rows cols in
  exists xs ys, computed m input k x = Some xs /\ computed m input (S k) o = Some ys /\ List.length xs = pow2_for K /\ List.length ys = pow2_for N /\
    forall j, (j < List.length ys)%nat ->
      entry ys j = ((if (j <? N)%nat then dense_sum (dense_weight (l_transB l) cols data) K xs j else 0) + entry (bias_vector l) j) / m_alpha m.
Proof.
  intros N Hop Hx Hw Hd Ho.
  assert (G : forall p, 0 < p -> _) by (intros p Hp; exact (gemm_sound p m pf input k l x wn rows cols rest data o Hp (V p) (lat k l N) Hop Hx Hw Hd Ho)).
  cbv beta in G. destruct (dense_dims (l_transB l) rows cols) as (K, M).
  destruct (G 1 ltac:(lia)) as (_ & _ & xs & ys & E1 & E2 & L1 & L2 & _). exists xs, ys. rewrite <- !tv. do 4 (split; [assumption|]).
  intros j Hj. apply exact_quotient with (m_exponent m); [exact Halpha|]. intros p Hp.
  destruct (G p Hp) as (_ & _ & xs' & ys' & E1' & E2' & _ & _ & H). rewrite E1 in E1'. rewrite E2 in E2'. injection E1' as <-. injection E2' as <-. now apply H.
Qed.

Lemma conv_exact k l x wn cout cin kh kw rest data o lay : nth_error (m_layers m) k = Some l -> l_op l = Conv ->
  nth_error (l_inputs l) 0 = Some x -> nth_error (l_inputs l) 1 = Some wn ->
  hget (l_weights l) wn = Some (cout :: cin :: kh :: kw :: rest, data) ->
  In o (l_outputs l) -> tensor_layout m pf input k x = Some lay ->
  let oh := windows (pad_begin l 0 + height lay + pad_end l 0) kh (stride l 0) in
  let ow := windows (pad_begin l 1 + width lay + pad_end l 1) kw (stride l 1) in
  let out := HWC oh ow cout (pow2_for cout) in
  channels lay = cin /\ tensor_layout m pf input (S k) o = Some out /\
  exists xs ys, computed m input k x = Some xs /\ computed m input (S k) o = Some ys /\
    List.length ys = (pow2_for (oh * ow) * pow2_for cout)%nat /\
    forall co i j, (co < cout)%nat -> (i < oh)%nat -> (j < ow)%nat ->
      entry ys (position out co i j) =
      (conv_sum lay xs data cin kh kw (pad_begin l 0) (pad_begin l 1) co (i * stride l 0) (j * stride l 1) + entry (bias_vector l) co) / m_alpha m.
Proof.
  intros N Hop Hx Hw Hd Ho Hl oh ow out.
  assert (G : forall p, 0 < p -> _) by (intros p Hp; exact (conv_sound p m pf input k l x wn cout cin kh kw rest data o lay Hp (V p) (lat k l N) Hop Hx Hw Hd Ho Hl)).
  cbv beta zeta in G. fold oh ow in G. fold out in G.
  destruct (G 1 ltac:(lia)) as (_ & Hc & _ & Hlo & xs & ys & E1 & E2 & L1 & _). split; [exact Hc|]. split; [exact Hlo|].
  exists xs, ys. rewrite <- !tv. do 3 (split; [assumption|]).
  intros co i j H1 H2 H3. apply exact_quotient with (m_exponent m); [exact Halpha|]. intros p Hp.
  destruct (G p Hp) as (_ & _ & _ & _ & xs' & ys' & E1' & E2' & _ & H). rewrite E1 in E1'. rewrite E2 in E2'. injection E1' as <-. injection E2' as <-.
  now apply H.
Qed.

Lemma witness_before k l : nth_error (m_layers m) k = Some l -> exists ws ws', witness_after m input k = Some ws /\
  witness_after m input (S k) = Some ws' /\ witness_layer m l ws = Some ws' /\
  (forall n, In n (map l_name (skipn (S k) (m_layers m))) \/ hget (pf_observed pf) n = hget (w_observed ws') n).
Proof.
  intros N. destruct HF as (w & Wt & Gp). unfold compute_witness in Wt. repeat inv_step Wt.
  destruct (for_each_at _ _ _ _ _ _ E1 N) as (s1 & s2 & K1 & K2 & K3 & K4).
  exists s1, s2. unfold witness_after. rewrite E. cbn [obind]. do 3 (split; [assumption|]).
  intros n. destruct (in_dec string_dec n (map l_name (skipn (S k) (m_layers m)))) as [I|I]; [now left|right].
  rewrite <- (proj2 (witness_layers_ext _ _ _ _ K4) n I). subst w.
  unfold generate_proof in Gp. cbn [wd_observed wd_shreds] in Gp. repeat inv_step Gp. destruct a6. 
  repeat inv_step Gp.
 rewrite <- Gp. reflexivity.
Qed.

Lemma observed_set k l : nth_error (m_layers m) k = Some l -> l_op l = Relu \/ l_op l = MaxPool -> width_set pf l.
Proof.
  intros N Hop. destruct (witness_before k l N) as (ws & ws' & _ & _ & Wl & O). right.
  destruct (O (l_name l)) as [I|E].
  - exfalso. pose proof (proj1 HP) as ND. revert N I ND. clear. revert k. induction (m_layers m) as [|a ls IH]; intros [|k] N I ND; try discriminate.
    + cbn in N, I. injection N as ->. now inversion ND.
    + cbn in ND. inversion ND. eapply IH; eauto.
  - rewrite E. unfold witness_layer in Wl. destruct Hop as [Hop|Hop]; rewrite Hop in Wl; [eapply relu_observed|eapply maxpool_observed]; eauto. destruct HP as (_ & (A1 & A2) & _). unfold i64 in A2. lia.
Qed.

Lemma value_i64 k y v i : computed m input k y = Some v -> i64 (entry v i).
Proof. intros H. apply entry_i64. apply Forall_forall. now apply (honest_i64 m input pf HP HF k y). Qed.
Lemma small_signed v : i64 v -> signed bn254_r v = v.
Proof. intros H. apply signed_small. assert (2 ^ 64 < bn254_r) by (vm_compute; reflexivity). unfold i64 in H. lia. Qed.

Lemma relu_exact k l x o : nth_error (m_layers m) k = Some l -> l_op l = Relu -> nth_error (l_inputs l) 0 = Some x -> In o (l_outputs l) ->
  exists xs, computed m input k x = Some xs /\ computed m input (S k) o = Some (map relu xs).
Proof.
  intros N Hop Hx Ho. assert (B : 2 ^ 20 < bn254_r) by (vm_compute; reflexivity).
  destruct (relu_sound bn254_r m pf input k l x o bn254_prime B (V _) (lat k l N) Hop (observed_set k l N (or_introl Hop)) Hx Ho) as (xs & ys & E1 & E2 & L & H).
  rewrite tv in E1, E2. exists xs. split; [exact E1|]. rewrite E2. f_equal. rewrite (list_as_map ys), (list_as_map (map relu xs)), map_length, L.
  apply map_ext_in. intros i Hi. apply in_seq in Hi. destruct (H i ltac:(lia)) as (Q & _). rewrite !small_signed in Q by (eapply value_i64; eauto).
  assert (Q2 : at_ ys i = relu (at_ xs i)) by exact Q. rewrite Q2. symmetry. apply at_map. lia.
Qed.

Lemma maxpool_exact k l x o lay : nth_error (m_layers m) k = Some l -> l_op l = MaxPool ->
  nth_error (l_inputs l) 0 = Some x -> In o (l_outputs l) -> tensor_layout m pf input k x = Some lay ->
  exists ph pw xs ys, l_kernel l = Some [ph; pw] /\
    let oh := windows (height lay) ph (stride l 0) in
    let ow := windows (width lay) pw (stride l 1) in
    computed m input k x = Some xs /\ computed m input (S k) o = Some ys /\
    tensor_layout m pf input (S k) o = Some (HWC oh ow (channels lay) (channels lay)) /\
    List.length ys = pow2_for (oh * ow * channels lay) /\
    forall c i j, (c < channels lay)%nat -> (i < oh)%nat -> (j < ow)%nat ->
      is_max (window lay xs ph pw c (i * stride l 0) (j * stride l 1)) (entry ys ((i * ow + j) * channels lay + c)).
Proof.
  intros N Hop Hx Ho Hl. assert (B : 2 ^ 20 < bn254_r) by (vm_compute; reflexivity).
  destruct (maxpool_sound bn254_r m pf input k l x o lay bn254_prime B (V _) (lat k l N) Hop (observed_set k l N (or_intror Hop)) Hx Ho Hl)
    as (ph & pw & xs & ys & Ek & E1 & E2 & El & L & H).
  exists ph, pw, xs, ys. rewrite tv in E1, E2. split; [exact Ek|]. cbv zeta. do 4 (split; [assumption|]). intros c i j Hc Hi Hj.
  assert (W : window_values bn254_r lay xs ph pw c (i * stride l 0) (j * stride l 1) = window lay xs ph pw c (i * stride l 0) (j * stride l 1)).
  { unfold window_values, window. rewrite !flat_map_concat_map. f_equal. apply map_ext. intros a. apply map_ext. intros b. apply small_signed. eapply value_i64; eauto. }
  specialize (H c i j Hc Hi Hj). cbv zeta in H. rewrite W in H. rewrite (small_signed (entry ys _)) in H by (eapply value_i64; eauto). apply H.
  intros v Hv. unfold window in Hv. apply in_flat_map in Hv. destruct Hv as (a & _ & Hv). apply in_map_iff in Hv. destruct Hv as (b & <- & _).
  assert (B' : 2 ^ 66 < bn254_r) by (vm_compute; reflexivity). assert (I := value_i64 k x xs (position lay c (i * stride l 0 + a) (j * stride l 1 + b)) E1). unfold i64 in I.
  lia.
Qed.

Lemma batchnorm_exact k l x mn an ms mv ads av o lay : nth_error (m_layers m) k = Some l -> l_op l = BatchNorm ->
  nth_error (l_inputs l) 0 = Some x -> nth_error (l_inputs l) 1 = Some mn -> nth_error (l_inputs l) 2 = Some an ->
  hget (l_weights l) mn = Some (ms, mv) -> hget (l_weights l) an = Some (ads, av) ->
  In o (l_outputs l) -> tensor_layout m pf input k x = Some lay ->
  (match lay with CHW _ _ _ => True | HWC _ _ _ st => (List.length mv <= st)%nat end) ->
  tensor_layout m pf input (S k) o = Some lay /\
  exists xs ys, computed m input k x = Some xs /\ computed m input (S k) o = Some ys /\ List.length ys = List.length xs /\
    forall c h w, (c < List.length mv)%nat -> (h < height lay)%nat -> (w < width lay)%nat ->
      let i := position lay c h w in (i < List.length ys)%nat -> entry ys i = (entry xs i * entry mv c + entry av c) / m_alpha m.
Proof.
  intros N Hop Hx Hm Ha Hmv Hav Ho Hl Hst.
  assert (Safe : forall l', In l' (firstn k (m_layers m)) -> layout_safe (l_op l')).
  { destruct (witness_before k l N) as (ws & _ & Ew & _). unfold witness_after in Ew. apply obind_some in Ew. destruct Ew as (x0 & _ & Ew).
    revert Ew. generalize (mkW [(SInput x0, pad_to_size input (pow2_for (List.length input)))] [(x0, pad_to_size input (pow2_for (List.length input)))] (input_layouts m) []).
    generalize (firstn k (m_layers m)). clear. induction l as [|a ls IH]; [easy|]. cbn [for_each]. intros w0 E l' Hl'. inv_step E.
    destruct Hl' as [->|Hl']; [|eapply IH; eauto]. unfold witness_layer in E0. destruct (l_op l'); easy. }
  assert (G : forall p, 0 < p -> _) by (intros p Hp; exact (batchnorm_sound p m pf input k l x mn an ms mv ads av o lay Hp (V p) (lat k l N) Hop Safe Hx Hm Ha Hmv Hav Ho Hl Hst)).
  cbv beta zeta in G.
  destruct (G 1 ltac:(lia)) as (_ & Hlo & xs & ys & E1 & E2 & L1 & _). split; [exact Hlo|].
  exists xs, ys. rewrite <- !tv. do 3 (split; [assumption|]).
  intros c h w H1 H2 H3 i Hi. apply exact_quotient with (m_exponent m); [exact Halpha|]. intros p Hp.
  destruct (G p Hp) as (_ & _ & xs' & ys' & E1' & E2' & _ & H). rewrite E1 in E1'. rewrite E2 in E2'. injection E1' as <-. injection E2' as <-.
  now apply H.
Qed.

Lemma addsub_exact k l a c o (add : bool) : nth_error (m_layers m) k = Some l -> l_op l = (if add then Add else Sub) ->
  nth_error (l_inputs l) 0 = Some a -> nth_error (l_inputs l) 1 = Some c -> In o (l_outputs l) ->
  exists xs zs ys, operand m input k l a = Some xs /\ operand m input k l c = Some zs /\ computed m input (S k) o = Some ys /\
    List.length ys = pow2_for (List.length xs) /\ List.length ys = pow2_for (List.length zs) /\
    forall i, (i < List.length ys)%nat -> entry ys i = if add then entry xs i + entry zs i else entry xs i - entry zs i.
Proof.
  intros N Hop Ha Hc Ho. destruct (witness_before k l N) as (ws & ws' & E1 & E2 & Wl & _).
  assert (SZ : hget (l_weights l) "result" = None /\ forall va vc, operand m input k l a = Some va -> operand m input k l c = Some vc ->
    pow2_for (List.length va) = pow2_for (List.length vc)).
  { destruct HP as (_ & _ & _ & _ & _ & SO). destruct (SO k l N) as (R & S); [destruct add; auto|]. split; [exact R|]. intros. eapply S; eauto. }
  assert (Op : forall y, operand m input k l y = match hget (w_tensors ws) y with Some v => Some v | None => let* w := hget (l_weights l) y in Some (snd w) end).
  { intros y. unfold operand, computed. rewrite E1. reflexivity. }
  assert (Wl' : witness_addsub l add ws = Some ws') by (unfold witness_layer in Wl; rewrite Hop in Wl; destruct add; exact Wl).
  unfold witness_addsub, aget in Wl'. rewrite Ha, Hc in Wl'. cbn [obind] in Wl'. rewrite <- !Op in Wl'.
  inv_step Wl'. rename a0 into va, E into Ea. inv_step Wl'. rename a0 into vc, E into Ec. inv_step Wl'. rename a0 into ys, E into Ey. injection Wl' as <-.
  exists va, vc, ys. split; [exact Ea|]. split; [exact Ec|].
  pose proof (proj2 SZ va vc Ea Ec) as EL.
  assert (Emax : pow2_for (Nat.max (List.length va) (List.length vc)) = pow2_for (List.length va)).
  { destruct (Nat.max_spec (List.length va) (List.length vc)) as [(_ & ->)|(_ & ->)]; congruence. }
  rewrite Emax in Ey. destruct (checked_zip_inv _ _ _ _ Ey) as (Q1 & Q2 & Q3); [now rewrite !pad_length|]. rewrite pad_length in Q3.
  split; [unfold computed; rewrite E2; cbn [obind insert_layouts insert_tensors w_tensors]; now apply hputs_in|].
  split; [exact Q3|]. split; [congruence|]. intros i Hi. destruct (zip_with_inv _ _ _ _ Q1) as (_ & _ & Q4).
  rewrite !entry_at, Q4 by (rewrite pad_length; lia). rewrite (at_pad va) by apply le_pow2_for.
  rewrite (at_pad vc) by (rewrite EL; apply le_pow2_for). destruct add; reflexivity.
Qed.

Lemma alias_exact k l x o : nth_error (m_layers m) k = Some l -> l_op l = Cast \/ l_op l = Reshape ->
  nth_error (l_inputs l) 0 = Some x -> In o (l_outputs l) -> computed m input (S k) o = computed m input k x.
Proof. intros N Hop Hx Ho. rewrite <- !tv. exact (alias_sound 1 m pf input k l x o (V 1) (lat k l N) Hop Hx Ho). Qed.

Lemma input_exact x : m_inputs m = [x] -> computed m input 0 x = Some (pad_to_size input (pow2_for (List.length input))).
Proof. intros Hx. rewrite <- tv. exact (input_value 1 m pf input x (V 1) Hx). Qed.

(** ** Flattened feature maps *)

Lemma rows_firstn (ys : list Z) ow : forall oh, (oh * ow <= List.length ys)%nat ->
  firstn (oh * ow) ys = flat_map (fun i => map (fun j => entry ys (i * ow + j)) (seq 0 ow)) (seq 0 oh).
Proof.
  induction oh as [|oh IH]; intros H; [reflexivity|]. rewrite seq_S, flat_map_app, <- IH by lia. cbn [flat_map Nat.add]. rewrite app_nil_r.
  replace (S oh * ow)%nat with (oh * ow + ow)%nat by lia. rewrite <- (firstn_skipn (oh * ow) ys) at 1. 
  rewrite firstn_app, firstn_firstn, Nat.min_r by lia. f_equal. rewrite firstn_length, Nat.min_l by lia.
  replace (oh * ow + ow - oh * ow)%nat with ow by lia.
  assert (L : List.length (firstn ow (skipn (oh * ow) ys)) = ow) by (rewrite firstn_length, skipn_length; lia).
  rewrite (list_as_map (firstn ow (skipn (oh * ow) ys))), L. apply map_ext_in. intros j Hj. apply in_seq in Hj.
  unfold at_, entry. rewrite <- (firstn_skipn (oh * ow) ys) at 2. rewrite app_nth2; rewrite firstn_length, Nat.min_l by lia; [|lia].
  replace (oh * ow + j - oh * ow)%nat with j by lia. 
  rewrite <- (firstn_skipn ow (skipn (oh * ow) ys)) at 2. rewrite app_nth1 by lia. reflexivity.
Qed.

Lemma flatten_exact k l l' x y z wn cin kh kw rest data lay : nth_error (m_layers m) k = Some l -> l_op l = Conv ->
  nth_error (l_inputs l) 0 = Some x -> nth_error (l_inputs l) 1 = Some wn -> hget (l_weights l) wn = Some (1%nat :: cin :: kh :: kw :: rest, data) ->
  In y (l_outputs l) -> tensor_layout m pf input k x = Some lay ->
  nth_error (m_layers m) (S k) = Some l' -> l_op l' = Reshape -> nth_error (l_inputs l') 0 = Some y -> In z (l_outputs l') ->
  exists xs zs, computed m input k x = Some xs /\ computed m input (S (S k)) z = Some zs /\
    let maps := feature_maps (m_alpha m) l lay xs data 1 cin kh kw in firstn (List.length maps) zs = maps.
Proof.
  intros N Hop Hx Hw Hd Ho Hl N' Hop' Hx' Ho'.
  destruct (conv_exact k l x wn 1 cin kh kw rest data y lay N Hop Hx Hw Hd Ho Hl) as (_ & _ & xs & ys & E1 & E2 & L & H).
  exists xs, ys. split; [exact E1|]. split; [rewrite (alias_exact (S k) l' y z); auto|]. cbv zeta. unfold feature_maps.
  set (oh := windows (pad_begin l 0 + height lay + pad_end l 0) kh (stride l 0)) in *.
  set (ow := windows (pad_begin l 1 + width lay + pad_end l 1) kw (stride l 1)) in *.
  cbn [seq flat_map]. rewrite app_nil_r.
  rewrite (flat_map_ext_in' _ (fun i => map (fun j => entry ys (i * ow + j)) (seq 0 ow)) (seq 0 oh)).
  - assert (Hle : (oh * ow <= List.length ys)%nat) by (rewrite L; pose proof (le_pow2_for (oh * ow)); change (pow2_for 1) with 1%nat; lia).
    rewrite <- rows_firstn by exact Hle. rewrite firstn_length, Nat.min_l by exact Hle. reflexivity.
  - intros i Hi. apply map_ext_in. intros j Hj. apply in_seq in Hi, Hj.
    specialize (H 0%nat i j ltac:(lia) ltac:(lia) ltac:(lia)). cbn [position] in H. change (pow2_for 1) with 1%nat in H.
    rewrite Nat.mul_1_r, Nat.add_0_r in H. symmetry. exact H.
Qed.

(** ** Perceptrons *)

Lemma pad_map_relu X n : pad_to_size (map relu X) n = map relu (pad_to_size X n).
Proof.
  unfold pad_to_size. rewrite map_app, firstn_map, map_length. f_equal. 
  induction (n - List.length X)%nat as [|k IH]; [reflexivity|]. cbn [repeat map]. rewrite <- IH. reflexivity.
Qed.

Hypothesis WO : forall l, In l (m_layers m) -> weights_ok l.
Hypothesis Ops : forall l, In l (m_layers m) -> l_op l = Gemm \/ l_op l = Relu.

Lemma chain_exact o ls : forall k x X, skipn k (m_layers m) = ls -> chained x ls o ->
  computed m input k x = Some (pad_to_size X (pow2_for (List.length X))) ->
  exists Y, infer (m_alpha m) ls X = Some Y /\ computed m input (k + List.length ls) o = Some (pad_to_size Y (pow2_for (List.length Y))).
Proof.
  induction ls as [|l r IH]; intros k x X Hs Hc Hv.
  - cbn in Hc. subst x. exists X. rewrite Nat.add_0_r. auto.
  - destruct (nth_error_skip _ _ _ _ Hs) as (N & Hr). cbn [chained] in Hc. destruct Hc as (y & Hx & Hy & Hc).
    assert (Il : In l (m_layers m)) by (eapply nth_error_In; eauto).
    replace (k + List.length (l :: r))%nat with (S k + List.length r)%nat by (cbn; lia). cbn [infer].
    destruct (Ops l Il) as [Hop|Hop]; rewrite Hop.
    + destruct (gemm_parts _ _ _ _ _ _ (V 1) (lat k l N) Hop) as (x' & wn & rows & cols & rest & data & Hx' & Hwn & Hw).
      unfold aget in Hx', Hwn. rewrite Hx in Hx'. injection Hx' as <-.
      pose proof (dense_exact k l x wn rows cols rest data y N Hop Hx Hwn Hw ltac:(rewrite Hy; now left)) as D.
      destruct (WO l Il _ _ _ Hw) as (_ & _ & Wb). specialize (Wb Hop _ _ _ Hwn eq_refl).
      unfold dense. rewrite Hwn, Hw. destruct (dense_dims (l_transB l) rows cols) as (K, M). cbn [snd] in Wb.
      destruct D as (xs & ys & E1 & E2 & L1 & L2 & HD). rewrite Hv in E1. injection E1 as <-.
      set (Y := map _ (seq 0 M)). apply (IH (S k) y Y Hr Hc). rewrite E2. f_equal.
      assert (LY : List.length Y = M) by (unfold Y; now rewrite map_length, seq_length). rewrite LY.
      rewrite (list_as_map ys), (list_as_map (pad_to_size Y _)), pad_length, L2. apply map_ext_in. intros j Hj. apply in_seq in Hj.
      rewrite at_pad by (rewrite LY; apply le_pow2_for). rewrite <- !entry_at, HD by lia.
      rewrite pad_length in L1.
      destruct (Nat.ltb_spec j M) as [Hm|Hm].
      * unfold Y. rewrite entry_at. rewrite (at_map_seq (fun j => _)) by exact Hm. f_equal. f_equal. unfold dense_sum. f_equal. apply map_ext. intros i.
        rewrite !entry_at, at_pad by apply le_pow2_for. reflexivity.
      * unfold entry, at_. rewrite (nth_overflow Y) by lia. rewrite (nth_overflow (bias_vector l)) by lia. apply Z.div_small.
        destruct HP as (_ & (? & _) & _). lia.
    + destruct (relu_exact k l x y N Hop Hx ltac:(rewrite Hy; now left)) as (xs & E1 & E2). rewrite Hv in E1. injection E1 as <-.
      apply (IH (S k) y (map relu X) Hr Hc). rewrite E2, map_length, pad_map_relu. reflexivity.
Qed.

End Exact.

Lemma perceptron_exact m input pf x o :
  provable m input -> honest_proof m input pf -> m_alpha m = 2 ^ Z.of_nat (m_exponent m) ->
  m_inputs m = [x] -> m_outputs m = [o] -> chained x (m_layers m) o ->
  (forall l, In l (m_layers m) -> (l_op l = Gemm \/ l_op l = Relu) /\ weights_ok l) ->
  exists ys, infer (m_alpha m) (m_layers m) input = Some ys /\ pf_expected pf = pad_to_size ys (pow2_for (List.length ys)).
Proof.
  intros HP HF Ha Hx Ho Hc Hl.
  destruct (chain_exact m input pf HP HF Ha) with (o := o) (ls := m_layers m) (k := 0%nat) (x := x) (X := input) as (Y & E & F); auto.
  - intros l I. now apply Hl.
  - intros l I. now apply Hl.
  - now apply (input_exact m input pf).
  - exists Y. split; [exact E|]. cbn [Nat.add] in F. rewrite (honest_output m input pf o HP HF Ho) in F. now injection F.
Qed.
