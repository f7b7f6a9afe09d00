(** Dense layers, additions, aliases and batch normalisation in accepted
    Remainder proofs. *)
From Coq Require Import ZArith Znumtheory List Bool Lia String.
From Verif Require Import Base.Array Base.Machine Spec.Numbers Spec.Remainder Spec.RemainderCircuit Model.Remainder.
From Verif Require Import Proofs.RemainderArith Proofs.RemainderBuild Proofs.RemainderPublic Proofs.RemainderSound.
Import ListNotations.
Local Open Scope Z_scope.

(** ** Aliases *)

Lemma alias_sound p m pf input k l x o : verify p m pf input = true -> layer_at m k l -> l_op l = Cast \/ l_op l = Reshape ->
  aget (l_inputs l) 0 = Some x -> In o (l_outputs l) ->
  tensor_value m pf input (S k) o = tensor_value m pf input k x.
Proof.
  intros V L Hop Hx Ho. destruct (around_verify _ _ _ _ _ _ V L) as (env & b1 & b2 & s1 & s2 & A).
  pose proof (ar_build _ _ _ _ _ _ _ _ _ _ _ A) as B.
  destruct (obs_same (pf_observed pf) l) as (En & Eop & Ei & Eo & _).
  assert (B' : build_alias (obs (pf_observed pf) l) b1 = Some b2).
  { unfold build_layer in B. rewrite Eop in B. destruct Hop as [Hop|Hop]; rewrite Hop in B; exact B. }
  unfold build_alias in B'. rewrite Ei, Hx, Eo in B'. cbn [obind] in B'. inv_step B'. inv_step B'. injection B' as <-.
  rewrite (ar_before _ _ _ _ _ _ _ _ _ _ _ A), (ar_after _ _ _ _ _ _ _ _ _ _ _ A). cbn [b_nodes set_layouts set_outputs].
  rewrite hputs_in by auto. now rewrite E.
Qed.

(** ** Sums *)

Lemma resolve_value p m pf input k l env b1 b2 s1 s2 x b b' n nv :
  around p m pf input k l env b1 b2 s1 s2 -> 
  b_nodes b = b_nodes b1 ->
  resolve_input (obs (pf_observed pf) l) x b = Some (n, nv, b') ->
  b_nodes b' = b_nodes b1 /\
  (hget (b_nodes b1) x = Some n \/
   (hget (b_nodes b1) x = None /\ n = NShred (SLayer (l_name l) x) nv /\
    b' = add_shred (SLayer (l_name l) x) nv Public b /\
    exists w, hget (l_weights l) x = Some w /\ nv = nvars (List.length (snd w)))).
Proof.
  intros A Eb H. unfold resolve_input in H. rewrite Eb in H. destruct (obs_same (pf_observed pf) l) as (En & _ & _ & _ & _ & Ew & _).
  rewrite En, Ew in H. destruct (hget (b_nodes b1) x) as [n'|] eqn:Ex.
  - inv_step H. injection H as <- <- <-. auto.
  - inv_step H. injection H as <- <- <-. split; [exact Eb|]. right. split; [reflexivity|]. split; [reflexivity|]. split; [reflexivity|]. now exists a.
Qed.

Lemma addsub_sound p m pf input k l a c o (add : bool) : 0 < p -> verify p m pf input = true -> layer_at m k l ->
  l_op l = (if add then Add else Sub) ->
  aget (l_inputs l) 0 = Some a -> aget (l_inputs l) 1 = Some c -> a <> "result"%string -> c <> "result"%string -> In o (l_outputs l) ->
  exists xs zs ys, operand_value m pf input k l a xs /\ operand_value m pf input k l c zs /\
    tensor_value m pf input (S k) o = Some ys /\
    List.length xs = List.length ys /\ List.length zs = List.length ys /\
    forall i, (i < List.length ys)%nat ->
      signed p (at_ ys i) = signed p (if add then at_ xs i + at_ zs i else at_ xs i - at_ zs i).
Proof.
  intros Hp V L Hop Ha Hc Na Nc Ho. destruct (around_verify _ _ _ _ _ _ V L) as (env & b1 & b2 & s1 & s2 & A).
  pose proof (ar_build _ _ _ _ _ _ _ _ _ _ _ A) as B. pose proof (ar_public _ _ _ _ _ _ _ _ _ _ _ A) as P.
  destruct (obs_same (pf_observed pf) l) as (En & Eop & Ei & Eo & _ & Ew & _).
  assert (B' : build_addsub (obs (pf_observed pf) l) add b1 = Some b2).
  { unfold build_layer in B. rewrite Eop, Hop in B. destruct add; exact B. }
  clear B. unfold build_addsub in B'. rewrite Ei, Ha, Hc in B'. cbn [obind] in B'. inv_step B'.
  inv_step B'. destruct a0 as ((an, av), b3). inv_step B'. destruct a0 as ((cn, cv), b4).
  destruct (resolve_value _ _ _ _ _ _ _ _ _ _ _ _ _ _ _ _ A eq_refl E) as (N3 & R1).
  destruct (resolve_value _ _ _ _ _ _ _ _ _ _ _ _ _ _ _ _ A N3 E0) as (N4 & R2).
  rewrite En, Eo in B'. injection B' as B.
  set (nv := Nat.max av cv) in *.
  assert (C : holds p env (Zero (ESub ((if add then EAdd else ESub) (ENode an) (ENode cn)) (ENode (NShred (SLayer (l_name l) "result") nv)))) = true).
  { apply (ar_checks _ _ _ _ _ _ _ _ _ _ _ A). rewrite <- B. cbn. auto. }
  apply holds_zero in C. destruct C as (v & Ev & Hv). cbn [eval_sector] in Ev. inv_step Ev. inv_step Ev.
  rename a0 into s, a1 into ys. cbn [eval_sector] in E2.
  assert (S' : exists xs zs, eval_node env an = Some xs /\ eval_node env cn = Some zs /\ List.length zs = List.length xs /\
     List.length s = List.length xs /\ forall i, (i < List.length xs)%nat -> at_ s i = if add then at_ xs i + at_ zs i else at_ xs i - at_ zs i).
  { destruct add; cbn [eval_sector] in E1; destruct (eval_node env an) as [xs|]; try discriminate;
      destruct (eval_node env cn) as [zs|]; try discriminate; cbn [obind] in E1;
      apply zip_with_inv in E1; destruct E1 as (L1 & L2 & A1); exists xs, zs; auto. }
  destruct S' as (xs & zs & Exs & Ezs & L1 & L2 & A1). apply zip_with_inv in Ev. destruct Ev as (L3 & L4 & A2).
  assert (OP : forall y n nv' v', (hget (b_nodes b1) y = Some n \/
     (hget (b_nodes b1) y = None /\ n = NShred (SLayer (l_name l) y) nv' /\
      (exists vis, sget (b_manifest b2) (SLayer (l_name l) y) = Some (vis, Public)) /\
      exists w, hget (l_weights l) y = Some w /\ nv' = nvars (List.length (snd w)))) ->
     (y = a \/ y = c) -> eval_node env n = Some v' -> operand_value m pf input k l y v').
  { intros y n nv' v' H Hy Hev. destruct H as [H|(H & -> & (vis & Hm) & w & Hw & ->)].
    - left. now rewrite (ar_before _ _ _ _ _ _ _ _ _ _ _ A), H.
    - right. exists w. split; [exact Hw|]. apply eval_shred in Hev. destruct Hev as (Hev & Lv).
      rewrite (ar_env _ _ _ _ _ _ _ _ _ _ _ A) in Hev by reflexivity. rewrite Hm in Hev.
      assert (P' : exists sz, sget (ps_shreds s2) (SLayer (l_name l) y) = Some (pad_to_size (snd w) sz)).
      { clear - Hop Eop Ei Ew En Ha Hc P Hev Hw Hy A. unfold public_layer in P. rewrite Eop, Hop in P.
        assert (P' : exists lay sz sz', s2 = put_sizes (l_outputs (obs (pf_observed pf) l)) sz' lay
             (let put x st' := match hget (ps_sizes s1) x, hget (l_weights l) x with
                       | None, Some w => put_shred (SLayer (l_name l) x) (pad_to_size (snd w) sz) st'
                       | _, _ => st' end in put a (put c s1))).
        { destruct add; rewrite Ei, Ha, Hc in P; cbn [obind] in P; inv_step P; inv_step P; injection P as <-; rewrite En, Ew; do 3 eexists; reflexivity. }
        clear P. destruct P' as (lay & sz & sz' & ->). exists sz. cbn [ps_shreds put_sizes] in *.
        pose proof (ar_fresh _ _ _ _ _ _ _ _ _ _ _ A (SLayer (l_name l) y) eq_refl) as F.
        destruct (hget (ps_sizes s1) a), (hget (l_weights l) a) as [wa|] eqn:Ea, (hget (ps_sizes s1) c), (hget (l_weights l) c) as [wc|] eqn:Ec;
          cbn [ps_shreds put_shred sget] in *;
          repeat match goal with |- context [shred_eqb ?u ?v] => let Q := fresh in destruct (shred_eqb_spec u v) as [Q|Q]; [injection Q as Q; subst; try congruence|] end;
          destruct Hy; congruence. }
      destruct P' as (sz & P'). rewrite P' in Hev. injection Hev as <-. rewrite pad_length in Lv. subst sz.
      change (2 ^ nvars (List.length (snd w)))%nat with (pow2_for (List.length (snd w))). unfold pad_to_size.
      rewrite firstn_all2 by apply le_pow2_for. reflexivity. }
  exists xs, zs, ys.
  assert (M2 : b_manifest b2 = (SLayer (l_name l) "result", (nv, Committed)) :: b_manifest b4) by (rewrite <- B; reflexivity).
  split.
  { apply (OP a an av); auto. destruct R1 as [R1|(R1 & R1' & R1'' & R1w)]; [left; exact R1|right].
    split; [exact R1|]. split; [exact R1'|]. split; [|exact R1w].
    rewrite M2. cbn [sget]. rewrite shred_neq by congruence.
    destruct R2 as [R2|(R2 & R2' & R2'' & R2w)].
    - assert (b4 = b3). { unfold resolve_input in E0. rewrite N3, R2 in E0. inv_step E0. congruence. }
      subst b4. rewrite R1''. cbn. rewrite shred_eqb_refl. eauto.
    - rewrite R1, R2 in G. discriminate. }
  split.
  { apply (OP c cn cv); auto. destruct R2 as [R2|(R2 & R2' & R2'' & R2w)]; [left; exact R2|right].
    split; [exact R2|]. split; [exact R2'|]. split; [|exact R2w].
    rewrite M2. cbn [sget]. rewrite shred_neq by congruence. rewrite R2''. cbn. rewrite shred_eqb_refl. eauto. }
  split.
  { rewrite (ar_after _ _ _ _ _ _ _ _ _ _ _ A), <- B. cbn [b_nodes set_layouts set_outputs]. rewrite hputs_in by auto. exact E2. }
  split; [lia|]. split; [lia|]. intros i Hi. specialize (Hv i ltac:(lia)). rewrite A2, A1 in Hv by lia.
  symmetry. apply signed_eq; auto.
Qed.

(** ** Matrices *)

Lemma decode i j n : (j < n)%nat -> ((i * n + j) / n = i /\ (i * n + j) mod n = j)%nat.
Proof.
  intros H. split.
  - rewrite Nat.div_add_l by lia. rewrite Nat.div_small by auto. lia.
  - rewrite Nat.add_comm, Nat.mod_add by lia. now apply Nat.mod_small.
Qed.

Lemma encode_lt i j r n : (i < r -> j < n -> i * n + j < r * n)%nat.
Proof. nia. Qed.

Lemma at_map_seq f n i : (i < n)%nat -> at_ (map f (seq 0 n)) i = f i.
Proof.
  intros H. unfold at_. rewrite (nth_indep _ 0 (f 0%nat)) by (now rewrite map_length, seq_length).
  rewrite map_nth, seq_nth by auto. reflexivity.
Qed.

Lemma pad_matrix_spec data rows cols pr pc v : pad_matrix data rows cols pr pc = Some v ->
  List.length v = (pr * pc)%nat /\ (rows * cols <= List.length data)%nat /\ (rows <= pr)%nat /\ (cols <= pc)%nat /\
  forall i j, (i < pr)%nat -> (j < pc)%nat ->
    at_ v (i * pc + j) = if ((i <? rows) && (j <? cols))%nat then at_ data (i * cols + j) else 0.
Proof.
  unfold pad_matrix. intros H. inv_step H. injection H as <-. apply andb_prop in G. destruct G as (G & G3).
  apply andb_prop in G. destruct G as (G1 & G2). apply Nat.leb_le in G1, G2, G3.
  split; [now rewrite map_length, seq_length|]. do 3 (split; [assumption|]).
  intros i j Hi Hj. rewrite at_map_seq by nia. destruct (decode i j pc Hj) as (-> & ->). reflexivity.
Qed.

Lemma transpose_spec data rows cols v : transpose_matrix data rows cols = Some v ->
  List.length v = (rows * cols)%nat /\
  forall i j, (i < rows)%nat -> (j < cols)%nat -> at_ v (j * rows + i) = at_ data (i * cols + j).
Proof.
  unfold transpose_matrix. intros H. inv_step H. injection H as <-. split; [now rewrite map_length, seq_length|].
  intros i j Hi Hj. rewrite at_map_seq by nia. destruct (decode j i rows Hi) as (-> & ->). reflexivity.
Qed.

Lemma zsum_extend f a b : (a <= b)%nat -> (forall i, (a <= i < b)%nat -> f i = 0) ->
  zsum (map f (seq 0 b)) = zsum (map f (seq 0 a)).
Proof.
  intros H Z0. replace b with (a + (b - a))%nat by lia. rewrite seq_app, map_app. unfold zsum. rewrite fold_right_app.
  cbn [Nat.add]. replace (fold_right Z.add 0 (map f (seq a (b - a)))) with 0; [reflexivity|].
  symmetry. change (zsum (map f (seq a (b - a))) = 0). apply (zsum_zero f). intros i Hi. apply in_seq in Hi. apply Z0. lia.
Qed.

(** The rescaled sum. *)
Lemma rescale_zero p env v bias q r alpha : holds p env (Zero (rescale_check v bias q r alpha)) = true ->
  exists vv vb vq vr, eval_sector env v = Some vv /\ eval_sector env bias = Some vb /\ eval_sector env q = Some vq /\
    eval_sector env r = Some vr /\ List.length vb = List.length vv /\ List.length vq = List.length vv /\ List.length vr = List.length vv /\
    forall i, (i < List.length vv)%nat -> (at_ vv i + at_ vb i - alpha * at_ vq i - at_ vr i) mod p = 0.
Proof.
  unfold rescale_check. intros H. apply sub_sub_zero in H. destruct H as (a & b & c & E1 & E2 & E3 & L1 & L2 & H).
  cbn [eval_sector] in E1, E2. inv_step E1. inv_step E1. inv_step E2. injection E2 as <-. apply zip_with_inv in E1.
  destruct E1 as (L3 & L4 & A1). rewrite map_length in L1.
  exists a0, a1, a2, c. do 4 (split; [assumption|]). split; [lia|]. split; [lia|]. split; [lia|].
  intros i Hi. specialize (H i ltac:(lia)). rewrite A1, at_map in H by lia. exact H.
Qed.

(** ** Dense layers *)

Lemma gemm_sound p m pf input k l x wn rows cols rest data o : 0 < p -> verify p m pf input = true -> layer_at m k l -> l_op l = Gemm ->
  aget (l_inputs l) 0 = Some x -> aget (l_inputs l) 1 = Some wn -> hget (l_weights l) wn = Some (rows :: cols :: rest, data) ->
  In o (l_outputs l) ->
  let '(K, N) := dense_dims (l_transB l) rows cols in
  (m_exponent m <= 18)%nat /\ (rows * cols <= List.length data)%nat /\
  exists xs ys, tensor_value m pf input k x = Some xs /\ tensor_value m pf input (S k) o = Some ys /\
    List.length xs = pow2_for K /\ List.length ys = pow2_for N /\
    forall j, (j < List.length ys)%nat -> exists r, in_width (m_exponent m) r /\
      (m_alpha m * at_ ys j + r -
       ((if (j <? N)%nat then dense_sum (dense_weight (l_transB l) cols data) K xs j else 0) + entry (bias_vector l) j)) mod p = 0.
Proof.
  intros Hp V L Hop Hx Hwn Hw Ho. destruct (around_verify _ _ _ _ _ _ V L) as (env & b1 & b2 & s1 & s2 & A).
  pose proof (ar_build _ _ _ _ _ _ _ _ _ _ _ A) as B. pose proof (ar_public _ _ _ _ _ _ _ _ _ _ _ A) as P.
  destruct (ar_tables _ _ _ _ _ _ _ _ _ _ _ A) as (tb & T).
  destruct (obs_same (pf_observed pf) l) as (En & Eop & Ei & Eo & _ & Ew & EtA & EtB & _).
  unfold layer_tables in T. rewrite Eop, Hop in T. apply width_tables_bound in T. cbn [m_exponent apply_observed] in T.
  unfold build_layer in B. rewrite Eop, Hop in B. unfold build_gemm in B. rewrite Ei, Hx, Hwn in B. cbn [obind] in B. rewrite Ew, Hw in B. cbn [obind fst] in B.
  inv_step B. unfold gemm_dims in B. cbn [aget nth_error obind] in B. rewrite EtB, En, Eo in B.
  change (if l_transB l then (cols, rows) else (rows, cols)) with (dense_dims (l_transB l) rows cols) in B.
  unfold public_layer in P. rewrite Eop, Hop in P. inv_step P. destruct a as (((wp, bias), K'), N'). injection P as P.
  unfold gemm_public in E. rewrite Ei, Hwn in E. cbn [obind] in E. rewrite Ew, Hw in E. cbn [obind fst snd] in E. unfold gemm_dims in E. cbn [aget nth_error obind] in E.
  rewrite EtB in E. change (if l_transB l then (cols, rows) else (rows, cols)) with (dense_dims (l_transB l) rows cols) in E.
  destruct (dense_dims (l_transB l) rows cols) as (K, N) eqn:ED. cbv beta iota in B, E.
  cbn [b_nodes add_shred] in B. inv_step B. rename a into xin, E0 into Exin.
  inv_step E. rename a into wt, E0 into Ewt. inv_step E. rename a into wpad, E0 into Ewp. injection E as <- <- <- <-.
  injection B as B.
  assert (C : holds p env (Zero (rescale_check (ENode (NMat xin 0 (nvars K) (NShred (SLayer (l_name l) "weight") (nvars K + nvars N)) (nvars K) (nvars N)))
      (ENode (NShred (SLayer (l_name l) "bias") (nvars N))) (ENode (NShred (SLayer (l_name l) "q") (nvars N)))
      (ENode (NShred (SLayer (l_name l) "r") (nvars N))) (m_alpha m))) = true).
  { apply (ar_checks _ _ _ _ _ _ _ _ _ _ _ A). rewrite <- B. cbn. auto. }
  assert (R := ar_ranges _ _ _ _ _ _ _ _ _ _ _ A (SLayer (l_name l) "r") (NShred (SLayer (l_name l) "r") (nvars N)) (m_exponent m) (nvars N)).
  specialize (R ltac:(rewrite <- B; cbn; auto)).
  assert (EW : env (SLayer (l_name l) "weight") = Some wpad).
  { rewrite (ar_env _ _ _ _ _ _ _ _ _ _ _ A) by reflexivity. rewrite <- B, <- P.
    cbn [b_manifest add_shred add_zero add_range set_outputs sget]. sget_tac. cbn [ps_shreds put_sizes put_shred sget]. rewrite En. now sget_tac. }
  assert (EB : env (SLayer (l_name l) "bias") = Some (broadcast_bias (bias_data (obs (pf_observed pf) l)) (pow2_for N))).
  { rewrite (ar_env _ _ _ _ _ _ _ _ _ _ _ A) by reflexivity. rewrite <- B, <- P.
    cbn [b_manifest add_shred add_zero add_range set_outputs sget]. sget_tac. cbn [ps_shreds put_sizes put_shred sget]. rewrite En. now sget_tac. }
  apply rescale_zero in C. destruct C as (vv & vb & vq & vr & Ev & Eb & Eq & Er & L1 & L2 & L3 & H).
  cbn [eval_sector] in Ev, Eb, Eq, Er. destruct R as (vr' & Er' & HR). rewrite Er in Er'. injection Er' as <-.
  change (eval_node env (NMat xin 0 (nvars K) (NShred (SLayer (l_name l) "weight") (nvars K + nvars N)) (nvars K) (nvars N)))
    with (let* va := eval_node env xin in
      let* vb := eval_node env (NShred (SLayer (l_name l) "weight") (nvars K + nvars N)) in
      let* _ := guard ((List.length va =? 2 ^ (0 + nvars K)) && (List.length vb =? 2 ^ (nvars K + nvars N)) && (nvars K =? nvars K))%nat in
      Some (map (fun ij => zsum (map (fun k => at_ va (ij / 2 ^ nvars N * 2 ^ nvars K + k) * at_ vb (k * 2 ^ nvars N + ij mod 2 ^ nvars N))
                                     (seq 0 (2 ^ nvars K))))
                (seq 0 (2 ^ (0 + nvars N))))) in Ev.
  inv_step Ev. rename a into xs, E into Exs. inv_step Ev. apply eval_shred in E. destruct E as (E & LW). rewrite EW in E. injection E as <-.
  inv_step Ev. apply andb_prop in G0. destruct G0 as (G0 & _). apply andb_prop in G0. destruct G0 as (G0 & _). apply Nat.eqb_eq in G0.
  injection Ev as Ev. apply eval_shred in Eb. destruct Eb as (Eb & LB). rewrite EB in Eb. injection Eb as <-.
  assert (LV : List.length vv = pow2_for N) by (rewrite <- Ev, map_length, seq_length; reflexivity).
  assert (DataLen : (rows * cols <= List.length data)%nat).
  { apply pad_matrix_spec in Ewp. destruct Ewp as (_ & Q & _). unfold dense_dims in ED. destruct (l_transB l).
    - clear - Ewt. unfold transpose_matrix in Ewt. inv_step Ewt. now apply Nat.leb_le in G.
    - injection ED as <- <-. injection Ewt as <-. exact Q. }
  split; [exact T|]. split; [exact DataLen|]. exists xs, vq.
  split; [rewrite (ar_before _ _ _ _ _ _ _ _ _ _ _ A), Exin; exact Exs|].
  split. { rewrite (ar_after _ _ _ _ _ _ _ _ _ _ _ A), <- B. cbn [b_nodes set_outputs]. rewrite hputs_in by auto. exact Eq. }
  split; [exact G0|]. split; [lia|]. intros j Hj.
  destruct (HR j ltac:(lia)) as (r & Wr & Cr). exists r. split; [exact Wr|]. specialize (H j ltac:(lia)).
  assert (Evj : at_ vv j = if (j <? N)%nat then dense_sum (dense_weight (l_transB l) cols data) K xs j else 0).
  { rewrite <- Ev, at_map_seq by (change (2 ^ (0 + nvars N))%nat with (pow2_for N); lia).
    change (2 ^ nvars N)%nat with (pow2_for N). change (2 ^ nvars K)%nat with (pow2_for K).
    rewrite Nat.div_small, Nat.mod_small by lia.
    apply pad_matrix_spec in Ewp. destruct Ewp as (_ & _ & LK & LN & W).
    destruct (Nat.ltb_spec j N) as [HN|HN].
    - rewrite (zsum_extend _ K) by (first [exact LK | intros i Hi; rewrite W by lia;
        destruct (Nat.ltb_spec i K); [lia|]; cbn; lia]).
      unfold dense_sum. apply zsum_ext. intros i Hi. apply in_seq in Hi. cbn [Nat.mul Nat.add].
      rewrite W by lia. destruct (Nat.ltb_spec i K); [|lia]. destruct (Nat.ltb_spec j N); [|lia]. cbn [andb].
      unfold entry. fold (at_ xs i). f_equal. unfold dense_weight, dense_dims in *. unfold matrix_entry, entry. destruct (l_transB l).
      + injection ED as <- <-. apply transpose_spec in Ewt. destruct Ewt as (_ & Q). rewrite Q by lia. reflexivity.
      + injection ED as <- <-. injection Ewt as <-. reflexivity.
    - apply zsum_zero. intros i Hi. apply in_seq in Hi. rewrite W by lia.
      destruct (Nat.ltb_spec j N); [lia|]. rewrite andb_false_r. lia. }
  assert (Ebj : at_ (broadcast_bias (bias_data (obs (pf_observed pf) l)) (pow2_for N)) j = entry (bias_vector l) j).
  { unfold broadcast_bias. rewrite at_map_seq by lia. unfold entry, at_, bias_data, bias_vector. rewrite Ei, Ew. reflexivity. }
  rewrite Evj, Ebj in H. apply mod_sub_cong in Cr; [|lia]. apply Z.mod_divide in H; [|lia]. apply mod_sub_cong; [lia|].
  destruct Cr as (a & Cr), H as (b & H). exists (- b - a). lia.
Qed.
