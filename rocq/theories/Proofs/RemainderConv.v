(** Convolution layers of accepted proofs. *)
From Coq Require Import ZArith Znumtheory List Bool Lia String ArithRing.
From Verif Require Import Base.Array Base.Machine Spec.Numbers Spec.Remainder Spec.RemainderCircuit Model.Remainder.
From Verif Require Import Proofs.RemainderArith Proofs.RemainderBuild Proofs.RemainderPublic Proofs.RemainderSound Proofs.RemainderLayers Proofs.RemainderImages.
Import ListNotations.
Local Open Scope Z_scope.

Lemma zsum_nest f a b : zsum (map f (seq 0 (a * b))) = zsum (map (fun i => zsum (map (fun j => f (i * b + j)%nat) (seq 0 b))) (seq 0 a)).
Proof.
  induction a as [|a IH]; [reflexivity|]. rewrite seq_S, map_app, zsum_app', <- IH. cbn [Nat.add map].
  replace (S a * b)%nat with (a * b + b)%nat by lia. rewrite seq_app, map_app, zsum_app'. cbn [Nat.add]. f_equal.
  cbn [zsum fold_right]. rewrite Z.add_0_r.
  assert (H : forall n s z, map f (seq (s + z) n) = map (fun j => f (s + j)%nat) (seq z n)).
  { clear. induction n as [|n IH]; intros s z; [reflexivity|]. cbn. f_equal. rewrite <- IH. now rewrite Nat.add_succ_r. }
  rewrite <- (H b (a * b)%nat 0%nat). now rewrite Nat.add_0_r.
Qed.

Lemma conv_geometry_inv l cout cin kh kw rest lay g : conv_geometry l (cout :: cin :: kh :: kw :: rest) lay = Some g ->
  (0 < stride l 0)%nat /\ (0 < stride l 1)%nat /\ channels lay = cin /\
  (kh <= pad_begin l 0 + height lay + pad_end l 0)%nat /\ (kw <= pad_begin l 1 + width lay + pad_end l 1)%nat /\
  g = mkGeom cout cin kh kw (pad_begin l 0) (pad_begin l 1) (stride l 0) (stride l 1) (height lay) (width lay)
        (windows (pad_begin l 0 + height lay + pad_end l 0) kh (stride l 0))
        (windows (pad_begin l 1 + width lay + pad_end l 1) kw (stride l 1)).
Proof.
  unfold conv_geometry. cbn [aget nth_error obind]. rewrite dims_layout. intros H. inv_step H. inv_step H. inv_step H. injection H as <-.
  apply andb_prop in G, G1. destruct G as (A1 & A2), G1 as (A3 & A4). apply Nat.ltb_lt in A1, A2. apply Nat.leb_le in A3, A4. apply Nat.eqb_eq in G0.
  unfold attr_nth in *. fold (stride l 0) in *. fold (stride l 1) in *.
  unfold pad_begin, pad_end. cbn [Nat.add] in *.
  do 2 (split; [assumption|]). split; [exact G0|]. split; [lia|]. split; [lia|].
  unfold windows, stride. f_equal; f_equal; f_equal; lia.
Qed.

(** Which pixel ends up at tap [(c, kr, kc)] of patch [(oh, ow)]. *)
Lemma conv_gate g lay va i j c kr kc : g_inh g = height lay -> g_inw g = width lay ->
  (i < g_oh g)%nat -> (j < g_ow g)%nat -> (c < g_cin g)%nat -> (kr < g_kh g)%nat -> (kc < g_kw g)%nat ->
  gate va (conv_wiring g lay) ((i * g_ow g + j) * pow2_for (g_patch g) + ((c * g_kh g + kr) * g_kw g + kc)) =
    padded_pixel lay va (g_top g) (g_left g) c (i * g_sh g + kr) (j * g_sw g + kc).
Proof.
  intros Eh Ew Hi Hj Hc Hr Hk. set (P2 := pow2_for (g_patch g)).
  set (d := ((i * g_ow g + j) * P2 + ((c * g_kh g + kr) * g_kw g + kc))%nat).
  set (F := fun oh ow c kr kc : nat =>
    if ((oh * g_sh g + kr <? g_top g) || (ow * g_sw g + kc <? g_left g))%nat then [] else
    if ((g_inh g <=? oh * g_sh g + kr - g_top g) || (g_inw g <=? ow * g_sw g + kc - g_left g))%nat then [] else
    [((oh * g_ow g + ow) * P2 + (c * g_kh g * g_kw g + kr * g_kw g + kc),
      lindex lay c (oh * g_sh g + kr - g_top g) (ow * g_sw g + kc - g_left g))]%nat).
  change (conv_wiring g lay) with
    (flat_map (fun oh => flat_map (fun ow => flat_map (fun c => flat_map (fun kr => flat_map (fun kc => F oh ow c kr kc)
      (seq 0 (g_kw g))) (seq 0 (g_kh g))) (seq 0 (g_cin g))) (seq 0 (g_ow g))) (seq 0 (g_oh g))).
  assert (TL : forall c kr kc, (c < g_cin g)%nat -> (kr < g_kh g)%nat -> (kc < g_kw g)%nat -> ((c * g_kh g + kr) * g_kw g + kc < P2)%nat).
  { intros c' kr' kc' H1 H2 H3. apply Nat.lt_le_trans with (g_patch g); [|apply le_pow2_for]. unfold g_patch.
    apply encode_lt; auto. now apply encode_lt. }
  assert (Z0 : forall i' j' c' kr' kc', (i' < g_oh g)%nat -> (j' < g_ow g)%nat -> (c' < g_cin g)%nat -> (kr' < g_kh g)%nat -> (kc' < g_kw g)%nat ->
     gate va (F i' j' c' kr' kc') d <> 0 -> i' = i /\ j' = j /\ c' = c /\ kr' = kr /\ kc' = kc).
  { intros i' j' c' kr' kc' B1 B2 B3 B4 B5 Q. unfold F in Q.
    destruct ((i' * g_sh g + kr' <? g_top g) || (j' * g_sw g + kc' <? g_left g))%nat; [now elim Q|].
    destruct ((g_inh g <=? i' * g_sh g + kr' - g_top g) || (g_inw g <=? j' * g_sw g + kc' - g_left g))%nat; [now elim Q|].
    rewrite gate_one in Q.
    match type of Q with context [Nat.eqb ?a ?b] => destruct (Nat.eqb_spec a b) as [E|E]; [|now elim Q] end.
    replace (c' * g_kh g * g_kw g + kr' * g_kw g + kc')%nat with ((c' * g_kh g + kr') * g_kw g + kc')%nat in E by ring.
    apply code_inj in E; [|apply TL; auto|apply TL; auto]. destruct E as (E1 & E2).
    apply code_inj in E1; auto. apply code_inj in E2; auto. destruct E2 as (E2 & E3). apply code_inj in E2; auto. tauto. }
  assert (Zd : forall x, ~ (x <> 0) -> x = 0) by (intros z; destruct (Z.eq_dec z 0); tauto).
  rewrite gate_flat, (zsum_one' _ _ i Hi).
  2:{ intros i' B1 N. rewrite gate_flat. apply zsum_zero. intros j' B2. apply in_seq in B2. rewrite gate_flat. apply zsum_zero. intros c' B3. apply in_seq in B3.
      rewrite gate_flat. apply zsum_zero. intros kr' B4. apply in_seq in B4. rewrite gate_flat. apply zsum_zero. intros kc' B5. apply in_seq in B5.
      apply Zd. intros Q. apply Z0 in Q; try lia. }
  rewrite gate_flat, (zsum_one' _ _ j Hj).
  2:{ intros j' B1 N. rewrite gate_flat. apply zsum_zero. intros c' B3. apply in_seq in B3.
      rewrite gate_flat. apply zsum_zero. intros kr' B4. apply in_seq in B4. rewrite gate_flat. apply zsum_zero. intros kc' B5. apply in_seq in B5.
      apply Zd. intros Q. apply Z0 in Q; try lia. }
  rewrite gate_flat, (zsum_one' _ _ c Hc).
  2:{ intros c' B1 N. 
      rewrite gate_flat. apply zsum_zero. intros kr' B4. apply in_seq in B4. rewrite gate_flat. apply zsum_zero. intros kc' B5. apply in_seq in B5.
      apply Zd. intros Q. apply Z0 in Q; try lia. }
  rewrite gate_flat, (zsum_one' _ _ kr Hr).
  2:{ intros kr' B1 N. rewrite gate_flat. apply zsum_zero. intros kc' B5. apply in_seq in B5. apply Zd. intros Q. apply Z0 in Q; try lia. }
  rewrite gate_flat, (zsum_one' _ _ kc Hk).
  2:{ intros kc' B1 N. apply Zd. intros Q. apply Z0 in Q; try lia. }
  unfold F, padded_pixel. rewrite Eh, Ew. fold (at_ va (position lay c (i * g_sh g + kr - g_top g) (j * g_sw g + kc - g_left g))).
  destruct (Nat.ltb_spec (i * g_sh g + kr) (g_top g)), (Nat.leb_spec (g_top g) (i * g_sh g + kr)); try lia; cbn [orb andb]; try reflexivity.
  destruct (Nat.ltb_spec (j * g_sw g + kc) (g_left g)), (Nat.leb_spec (g_left g) (j * g_sw g + kc)); try lia; cbn [orb andb];
    try (rewrite andb_false_r; reflexivity).
  destruct (Nat.leb_spec (height lay) (i * g_sh g + kr - g_top g)), (Nat.ltb_spec (i * g_sh g + kr - g_top g) (height lay)); try lia; cbn [orb andb]; try reflexivity.
  destruct (Nat.leb_spec (width lay) (j * g_sw g + kc - g_left g)), (Nat.ltb_spec (j * g_sw g + kc - g_left g) (width lay)); try lia; cbn [orb andb]; try reflexivity.
  rewrite gate_one, lindex_position.
  replace (c * g_kh g * g_kw g + kr * g_kw g + kc)%nat with ((c * g_kh g + kr) * g_kw g + kc)%nat by ring.
  fold d. now rewrite Nat.eqb_refl.
Qed.

Lemma conv_sound p m pf input k l x wn cout cin kh kw rest data o lay : 0 < p ->
  verify p m pf input = true -> layer_at m k l -> l_op l = Conv ->
  aget (l_inputs l) 0 = Some x -> aget (l_inputs l) 1 = Some wn ->
  hget (l_weights l) wn = Some (cout :: cin :: kh :: kw :: rest, data) ->
  In o (l_outputs l) -> tensor_layout m pf input k x = Some lay ->
  let oh := windows (pad_begin l 0 + height lay + pad_end l 0) kh (stride l 0) in
  let ow := windows (pad_begin l 1 + width lay + pad_end l 1) kw (stride l 1) in
  let out := HWC oh ow cout (pow2_for cout) in
  (m_exponent m <= 18)%nat /\ channels lay = cin /\ (cout * (cin * kh * kw) <= List.length data)%nat /\
  tensor_layout m pf input (S k) o = Some out /\
  exists xs ys, tensor_value m pf input k x = Some xs /\ tensor_value m pf input (S k) o = Some ys /\
    List.length ys = (pow2_for (oh * ow) * pow2_for cout)%nat /\
    forall co i j, (co < cout)%nat -> (i < oh)%nat -> (j < ow)%nat -> exists r, in_width (m_exponent m) r /\
      (m_alpha m * entry ys (position out co i j) + r -
       (conv_sum lay xs data cin kh kw (pad_begin l 0) (pad_begin l 1) co (i * stride l 0) (j * stride l 1) +
        entry (bias_vector l) co)) mod p = 0.
Proof.
  intros Hp V L Hop Hx Hwn Hw Ho Hlay. destruct (around_verify _ _ _ _ _ _ V L) as (env & b1 & b2 & s1 & s2 & A).
  pose proof (ar_build _ _ _ _ _ _ _ _ _ _ _ A) as B. pose proof (ar_public _ _ _ _ _ _ _ _ _ _ _ A) as P.
  destruct (ar_tables _ _ _ _ _ _ _ _ _ _ _ A) as (tb & T).
  destruct (obs_same (pf_observed pf) l) as (En & Eop & Ei & Eo & _ & Ew & EtA & EtB & Ek & Epd & Est & _).
  unfold layer_tables in T. rewrite Eop, Hop in T. apply width_tables_bound in T. cbn [m_exponent apply_observed] in T.
  unfold build_layer in B. rewrite Eop, Hop in B. unfold build_conv in B. rewrite Ei, Hx, Hwn in B. cbn [obind] in B. rewrite Ew, Hw in B. cbn [obind fst] in B.
  rewrite (ar_layout _ _ _ _ _ _ _ _ _ _ _ A) in Hlay. rewrite Hlay in B. cbn [obind] in B.
  inv_step B. rename a into g, E into Eg. inv_step B. rename a into xin, E into Exin. injection B as B. rewrite En, Eo in B.
  unfold public_layer in P. rewrite Eop, Hop, Ei, Hx in P. cbn [obind] in P. inv_step P. rename a into lay', E into Elay'.
  inv_step P. destruct a as ((wp, bias), g'). injection P as P. rewrite En in P.
  unfold conv_public in E. rewrite Ei, Hwn in E. cbn [obind] in E. rewrite Ew, Hw in E. cbn [obind fst snd] in E.
  inv_step E. rename a into g2, E0 into Eg'. inv_step E. rename a into wt, E0 into Ewt. inv_step E. rename a into wpad, E0 into Ewp.
  injection E as <- Ebias <-.
  apply conv_geometry_inv in Eg, Eg'. unfold stride, pad_begin, pad_end in Eg, Eg'. rewrite Epd, Est in Eg, Eg'.
  fold (stride l 0) (stride l 1) (pad_begin l 0) (pad_begin l 1) (pad_end l 0) (pad_end l 1) in Eg, Eg'.
  destruct Eg as (Hs0 & Hs1 & Hch & _ & _ & Eg). destruct Eg' as (_ & _ & _ & _ & _ & Eg').
  set (oh := windows (pad_begin l 0 + height lay + pad_end l 0) kh (stride l 0)) in *.
  set (ow := windows (pad_begin l 1 + width lay + pad_end l 1) kw (stride l 1)) in *.
  assert (EP : g_patch g = (cin * kh * kw)%nat) by (now rewrite Eg).
  assert (EP' : g_patch g2 = g_patch g) by (now rewrite Eg, Eg').
  assert (EC : g_cout g = cout) by (now rewrite Eg). assert (EC' : g_cout g2 = cout) by (now rewrite Eg').
  assert (EPs : g_patches g = (oh * ow)%nat) by (now rewrite Eg).
  rewrite EP', EC' in *. rewrite EC in B. rewrite EPs in B.
  set (rows := nvars (oh * ow)) in *. set (cols := nvars (g_patch g)) in *. set (outc := nvars cout) in *.
  set (mm := NMat (NGate xin (conv_wiring g lay) (rows + cols)) rows cols (NShred (SLayer (l_name l) "weight") (cols + outc)) cols outc) in *.
  assert (C : holds p env (Zero (rescale_check (ENode mm)
      (ENode (NShred (SLayer (l_name l) "bias") (rows + outc))) (ENode (NShred (SLayer (l_name l) "q") (rows + outc)))
      (ENode (NShred (SLayer (l_name l) "r") (rows + outc))) (m_alpha m))) = true).
  { apply (ar_checks _ _ _ _ _ _ _ _ _ _ _ A). rewrite <- B. left. reflexivity. }
  assert (R := ar_ranges _ _ _ _ _ _ _ _ _ _ _ A (SLayer (l_name l) "r") (NShred (SLayer (l_name l) "r") (rows + outc)) (m_exponent m) (rows + outc)%nat).
  specialize (R ltac:(rewrite <- B; left; reflexivity)).
  assert (EW : env (SLayer (l_name l) "weight") = Some wpad).
  { rewrite (ar_env _ _ _ _ _ _ _ _ _ _ _ A) by reflexivity. rewrite <- B, <- P.
    cbn [b_manifest add_shred add_zero add_range set_outputs set_layouts sget]. sget_tac. cbn [ps_shreds put_sizes put_shred sget]. now sget_tac. }
  assert (EB : env (SLayer (l_name l) "bias") = Some bias).
  { rewrite (ar_env _ _ _ _ _ _ _ _ _ _ _ A) by reflexivity. rewrite <- B, <- P.
    cbn [b_manifest add_shred add_zero add_range set_outputs set_layouts sget]. sget_tac. cbn [ps_shreds put_sizes put_shred sget]. now sget_tac. }
  apply rescale_zero in C. destruct C as (vv & vb & vq & vr & Ev & Eb & Eq & Er & L1 & L2 & L3 & H).
  cbn [eval_sector] in Ev, Eb, Eq, Er. destruct R as (vr' & Er' & HR). rewrite Er in Er'. injection Er' as <-.
  unfold mm in Ev.
  change (eval_node env (NMat (NGate xin (conv_wiring g lay) (rows + cols)) rows cols (NShred (SLayer (l_name l) "weight") (cols + outc)) cols outc))
    with (let* va := eval_node env (NGate xin (conv_wiring g lay) (rows + cols)) in
      let* vb := eval_node env (NShred (SLayer (l_name l) "weight") (cols + outc)) in
      let* _ := guard ((List.length va =? 2 ^ (rows + cols)) && (List.length vb =? 2 ^ (cols + outc)) && (cols =? cols))%nat in
      Some (map (fun ij => zsum (map (fun k => at_ va (ij / 2 ^ outc * 2 ^ cols + k) * at_ vb (k * 2 ^ outc + ij mod 2 ^ outc))
                                     (seq 0 (2 ^ cols))))
                (seq 0 (2 ^ (rows + outc))))) in Ev.
  inv_step Ev. rename a into pv, E into Epv. inv_step Ev. apply eval_shred in E. destruct E as (E & LW). rewrite EW in E. injection E as <-.
  inv_step Ev. clear G. injection Ev as Ev. apply eval_shred in Eb. destruct Eb as (Eb & LB). rewrite EB in Eb. injection Eb as <-.
  apply gate_eval in Epv. destruct Epv as (xs & Exs & Lpv & _ & HG).
  assert (LV : List.length vv = (2 ^ (rows + outc))%nat) by (rewrite <- Ev, map_length, seq_length; reflexivity).
  assert (PW : (2 ^ (rows + outc))%nat = (pow2_for (oh * ow) * pow2_for cout)%nat) by (rewrite Nat.pow_add_r; reflexivity).
  pose proof (transpose_spec _ _ _ _ Ewt) as (LT & HT). apply pad_matrix_spec in Ewp. destruct Ewp as (_ & _ & LK & LN & W).
  assert (DataLen : (cout * (cin * kh * kw) <= List.length data)%nat).
  { clear - Ewt EP. unfold transpose_matrix in Ewt. inv_step Ewt. apply Nat.leb_le in G. now rewrite EP in G. }
  cbv zeta. split; [exact T|]. split; [exact Hch|]. split; [exact DataLen|].
  split. { rewrite (ar_layout' _ _ _ _ _ _ _ _ _ _ _ A), <- B. cbn [b_layouts set_layouts set_outputs]. rewrite hputs_in by auto. now rewrite Eg. }
  exists xs, vq.
  split; [rewrite (ar_before _ _ _ _ _ _ _ _ _ _ _ A), Exin; exact Exs|].
  split. { rewrite (ar_after _ _ _ _ _ _ _ _ _ _ _ A), <- B. cbn [b_nodes set_outputs set_layouts]. rewrite hputs_in by auto. exact Eq. }
  split; [lia|]. intros co i j Hco Hi Hj. cbn [position].
  set (row := (i * ow + j)%nat). assert (Hrow : (row < oh * ow)%nat) by (now apply encode_lt).
  assert (Hrow' : (row < pow2_for (oh * ow))%nat) by (pose proof (le_pow2_for (oh * ow)); lia).
  assert (Hco' : (co < pow2_for cout)%nat) by (pose proof (le_pow2_for cout); lia).
  set (d := (row * pow2_for cout + co)%nat) in *.
  assert (Hd : (d < 2 ^ (rows + outc))%nat) by (rewrite PW; now apply encode_lt).
  destruct (HR d ltac:(lia)) as (r & Wr & Cr). exists r. split; [exact Wr|]. specialize (H d ltac:(lia)).
  assert (Evj : at_ vv d = conv_sum lay xs data cin kh kw (pad_begin l 0) (pad_begin l 1) co (i * stride l 0) (j * stride l 1)).
  { rewrite <- Ev, at_map_seq by exact Hd.
    change (2 ^ outc)%nat with (pow2_for cout). change (2 ^ cols)%nat with (pow2_for (g_patch g)).
    destruct (decode row co (pow2_for cout) Hco') as (D1 & D2). fold d in D1, D2. rewrite D1, D2.
    rewrite (zsum_extend _ (g_patch g)) by (first [exact LK | intros t Ht; rewrite W by lia;
        destruct (Nat.ltb_spec t (g_patch g)); [lia|]; cbn; lia]).
    rewrite EP at 1. replace (cin * kh * kw)%nat with (cin * kh * kw)%nat by reflexivity.
    rewrite (zsum_nest _ (cin * kh) kw), (zsum_nest _ cin kh). unfold conv_sum.
    apply zsum_ext. intros c Hc. apply zsum_ext. intros kr Hr. apply zsum_ext. intros kc Hk. apply in_seq in Hc, Hr, Hk.
    assert (HtP : ((c * kh + kr) * kw + kc < g_patch g)%nat).
    { rewrite EP. apply encode_lt; [|lia]. apply encode_lt; lia. }
    rewrite HG.
    2:{ unfold rows. fold (pow2_for (oh * ow)). rewrite Nat.pow_add_r. change (2 ^ cols)%nat with (pow2_for (g_patch g)).
        change (2 ^ nvars (oh * ow))%nat with (pow2_for (oh * ow)). apply encode_lt; [exact Hrow'|]. lia. }
    pose proof (conv_gate g lay xs i j c kr kc) as CG.
    assert (Q1 : g_inh g = height lay) by (now rewrite Eg). assert (Q2 : g_inw g = width lay) by (now rewrite Eg).
    assert (Q3 : g_oh g = oh) by (now rewrite Eg). assert (Q4 : g_ow g = ow) by (now rewrite Eg). assert (Q5 : g_cin g = cin) by (now rewrite Eg).
    assert (Q6 : g_kh g = kh) by (now rewrite Eg). assert (Q7 : g_kw g = kw) by (now rewrite Eg).
    assert (Q8 : g_top g = pad_begin l 0) by (now rewrite Eg). assert (Q9 : g_left g = pad_begin l 1) by (now rewrite Eg).
    assert (Q10 : g_sh g = stride l 0) by (now rewrite Eg). assert (Q11 : g_sw g = stride l 1) by (now rewrite Eg).
    rewrite Q3, Q4, Q5, Q6, Q7, Q8, Q9, Q10, Q11 in CG. fold row in CG. rewrite CG by (auto; lia). f_equal.
    rewrite W by lia. destruct (Nat.ltb_spec ((c * kh + kr) * kw + kc) (g_patch g)); [|lia]. destruct (Nat.ltb_spec co cout); [|lia].
    cbn [andb]. rewrite HT by lia. unfold entry, at_. f_equal. rewrite EP. ring. }
  assert (Ebj : at_ bias d = entry (bias_vector l) co).
  { rewrite <- Ebias, at_map_seq.
    - destruct (decode row co (pow2_for cout) Hco') as (D1 & D2). fold d in D2. rewrite D2.
      unfold bias_data, bias_vector, entry, at_. rewrite Ei, Ew. unfold aget.
      destruct (Nat.ltb_spec co cout); [|lia]. cbn [andb].
      match goal with |- context [(co <? List.length ?b)%nat] => destruct (Nat.ltb_spec co (List.length b)) as [|Q] end; [reflexivity|].
      symmetry. now apply nth_overflow.
    - rewrite <- Ebias, map_length, seq_length in LB. rewrite LB. exact Hd. }
  rewrite Evj, Ebj in H. unfold entry in *. apply mod_sub_cong in Cr; [|lia]. apply Z.mod_divide in H; [|lia]. apply mod_sub_cong; [lia|].
  destruct Cr as (a & Cr), H as (b & H). exists (- b - a). fold (at_ vq d). lia.
Qed.
