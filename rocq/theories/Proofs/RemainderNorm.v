(** Batch normalisation layers of accepted proofs. *)
From Coq Require Import ZArith Znumtheory List Bool Lia String ArithRing.
From Verif Require Import Base.Array Base.Machine Spec.Numbers Spec.Remainder Spec.RemainderCircuit Model.Remainder.
From Verif Require Import Proofs.RemainderArith Proofs.RemainderBuild Proofs.RemainderPublic Proofs.RemainderSound Proofs.RemainderLayers Proofs.RemainderImages.
Import ListNotations.
Local Open Scope Z_scope.

(** ** Layouts of the builder and of the verifier's public inputs *)

Definition agree (b : bstate) (s : pstate) : Prop := forall x, hget (b_layouts b) x = hget (ps_layouts s) x.

Lemma hputs_agree {V} (m m' : hmap V) outs v : (forall x, hget m x = hget m' x) -> forall x, hget (hputs m outs v) x = hget (hputs m' outs v) x.
Proof.
  intros H x. destruct (in_dec string_dec x outs) as [I|I]; [now rewrite !hputs_in|now rewrite !hputs_out].
Qed.

Lemma agree_put b s outs lay n f : agree b s -> b_layouts f = b_layouts b ->
  agree (set_layouts outs lay f) (put_sizes outs n lay s).
Proof.
  intros H E x. destruct lay as [y|]; cbn [set_layouts put_sizes b_layouts ps_layouts]; rewrite E; [|apply H].
  now apply hputs_agree.
Qed.

Lemma resolve_layouts l x b n nv b' : resolve_input l x b = Some (n, nv, b') -> b_layouts b' = b_layouts b.
Proof.
  unfold resolve_input. destruct (hget (b_nodes b) x).
  - intros H. inv_step H. now injection H as <- <- <-.
  - intros H. inv_step H. now injection H as <- <- <-.
Qed.

Lemma fold_shreds_layouts nv l : forall b, b_layouts (fold_left (fun b s => add_shred s nv Committed b) l b) = b_layouts b.
Proof. induction l as [|a l IH]; intros b; [reflexivity|]. cbn. now rewrite IH. Qed.
Lemma fold_zero_layouts {A} (f : A -> sector) l : forall b, b_layouts (fold_left (fun b x => add_zero (f x) b) l b) = b_layouts b.
Proof. induction l as [|a l IH]; intros b; [reflexivity|]. cbn. now rewrite IH. Qed.
Lemma fold_ranges_layouts nv w l : forall b, b_layouts (fold_left (fun b s => add_range s (NShred s nv) w nv b) l b) = b_layouts b.
Proof. induction l as [|a l IH]; intros b; [reflexivity|]. cbn. now rewrite IH. Qed.

Lemma agree_layer m l b b' s s' : layout_safe (l_op l) -> agree b s -> build_layer m l b = Some b' -> public_layer l s = Some s' -> agree b' s'.
Proof.
  intros HS HA B P. unfold build_layer in B. unfold public_layer in P. destruct (l_op l); try easy.
  - (* Gemm *)
    assert (EB : b_layouts b' = b_layouts b).
    { unfold build_gemm in B. do 5 inv_step B. destruct a2 as (k, n). inv_step B. now injection B as <-. }
    assert (EP : ps_layouts s' = ps_layouts s).
    { inv_step P. destruct a as (((w, bias), k), n). now injection P as <-. }
    intros x. rewrite EB, EP. apply HA.
  - (* Conv *)
    unfold build_conv in B. inv_step B. inv_step B. inv_step B. inv_step B. inv_step B. inv_step B. injection B as <-.
    rewrite E in P. cbn [obind] in P. rewrite <- (HA a), E2 in P. cbn [obind] in P. inv_step P. destruct a5 as ((w, bias), g'). injection P as <-.
    assert (g' = a3).
    { unfold conv_public in E5. rewrite E0 in E5. cbn [obind] in E5. rewrite E1 in E5. cbn [obind] in E5. rewrite E3 in E5. cbn [obind] in E5.
      inv_step E5. inv_step E5. now injection E5 as _ _ <-. }
    subst g'. eapply agree_put; [|reflexivity]. exact HA.
  - (* Relu *)
    unfold build_relu in B. inv_step B. inv_step B. inv_step B. injection B as <-. rewrite E in P. cbn [obind] in P. inv_step P. injection P as <-.
    match goal with |- agree (set_layouts _ ?u _) (put_sizes _ _ ?v _) => assert (EL : u = v) end.
    { rewrite <- (HA a). destruct (l_bits l); reflexivity. }
    rewrite EL. apply agree_put with (b := b).
    + exact HA.
    + destruct (l_bits l); reflexivity.
  - (* MaxPool *)
    unfold build_maxpool in B. inv_step B. inv_step B. inv_step B. inv_step B. injection B as <-.
    rewrite E in P. cbn [obind] in P. rewrite <- (HA a), E0 in P. cbn [obind] in P. rewrite E1 in P. cbn [obind] in P. injection P as <-.
    apply agree_put with (b := b); [exact HA|]. cbn [b_layouts set_outputs].
    assert (EF : forall b0, b_layouts (match l_bits l with
       | Some n_bits => fold_left (fun b1 s0 => add_range s0 (NShred s0 (nvars (p_out a1))) (delta_table_nv n_bits (m_exponent m)) (nvars (p_out a1)) b1)
                          (map (SDelta (l_name l)) (seq 0 (p_window a1))) b0
       | None => b0 end) = b_layouts b0).
    { intros b0. destruct (l_bits l); [apply fold_ranges_layouts|reflexivity]. }
    rewrite EF. cbn [b_layouts add_zero].
    match goal with |- b_layouts (fold_left _ _ ?c) = _ =>
      transitivity (b_layouts c); [exact (fold_zero_layouts (fun sg => ESub (ESub (ENode (NShred (SLayer (l_name l) "max") (nvars (p_out a1)))) (ENode (NGate a2 (snd sg) (nvars (p_out a1))))) (ENode (NShred (fst sg) (nvars (p_out a1))))) _ c)|] end.
    now rewrite fold_shreds_layouts.
  - (* Add *)
    unfold build_addsub in B. inv_step B. inv_step B. inv_step B. inv_step B. destruct a1 as ((an, av), b3). inv_step B. destruct a1 as ((cn, cv), b4).
    injection B as <-. rewrite E, E0 in P. cbn [obind] in P. inv_step P. inv_step P. injection P as <-.
    apply resolve_layouts in E1, E2.
    match goal with |- agree (set_layouts _ ?u _) (put_sizes _ _ ?v _) => assert (EL : u = v) end.
    { cbn [b_layouts add_zero add_shred]. rewrite E2, E1, !(HA _). reflexivity. }
    rewrite EL. apply agree_put with (b := b).
    + intros y. rewrite HA. destruct (hget (ps_sizes s) a), (hget (ps_sizes s) a0), (hget (l_weights l) a), (hget (l_weights l) a0); reflexivity.
    + cbn [b_layouts add_zero add_shred set_outputs]. now rewrite E2, E1.
  - (* Sub *)
    unfold build_addsub in B. inv_step B. inv_step B. inv_step B. inv_step B. destruct a1 as ((an, av), b3). inv_step B. destruct a1 as ((cn, cv), b4).
    injection B as <-. rewrite E, E0 in P. cbn [obind] in P. inv_step P. inv_step P. injection P as <-.
    apply resolve_layouts in E1, E2.
    match goal with |- agree (set_layouts _ ?u _) (put_sizes _ _ ?v _) => assert (EL : u = v) end.
    { cbn [b_layouts add_zero add_shred]. rewrite E2, E1, !(HA _). reflexivity. }
    rewrite EL. apply agree_put with (b := b).
    + intros y. rewrite HA. destruct (hget (ps_sizes s) a), (hget (ps_sizes s) a0), (hget (l_weights l) a), (hget (l_weights l) a0); reflexivity.
    + cbn [b_layouts add_zero add_shred set_outputs]. now rewrite E2, E1.
  - (* BatchNorm *)
    unfold build_batchnorm in B. inv_step B. inv_step B. inv_step B. injection B as <-. rewrite E in P. cbn [obind] in P. inv_step P. inv_step P.
    destruct a3 as (mul, add). injection P as <-.
    match goal with |- agree (set_layouts _ ?u _) (put_sizes _ _ ?v _) => assert (EL : u = v) by exact (HA a) end.
    rewrite EL. apply agree_put with (b := b); [exact HA|reflexivity].
  - (* Cast *)
    unfold build_alias in B. inv_step B. inv_step B. inv_step B. injection B as <-. rewrite E in P. cbn [obind] in P. inv_step P. injection P as <-.
    rewrite <- (HA a). apply agree_put with (b := b); [exact HA|reflexivity].
  - unfold build_alias in B. inv_step B. inv_step B. inv_step B. injection B as <-. rewrite E in P. cbn [obind] in P. inv_step P. injection P as <-.
    rewrite <- (HA a). apply agree_put with (b := b); [exact HA|reflexivity].
  - (* Slice *)
    unfold build_committed in B. injection B as <-. injection P as <-.
    match goal with |- agree (set_layouts _ ?u _) (put_sizes _ _ ?v _) => assert (EL : u = v) end.
    { f_equal. destruct (l_inputs l) as [|y r]; [reflexivity|exact (HA y)]. }
    rewrite EL. apply agree_put with (b := b); [exact HA|reflexivity].
Qed.

Lemma agree_layers m ls : forall b b' s s', Forall (fun l => layout_safe (l_op l)) ls -> agree b s ->
  build_layers m ls b = Some b' -> for_each ls public_layer s = Some s' -> agree b' s'.
Proof.
  induction ls as [|l ls IH]; intros b b' s s' F A B P.
  - cbn in B, P. injection B as <-. injection P as <-. exact A.
  - unfold build_layers in B. cbn [for_each] in B, P. inv_step B. inv_step P. inversion F; subst.
    apply (IH a b' a0 s'); auto. exact (agree_layer m l b a s a0 H1 A E E0).
Qed.

(** ** The factors spread over an image *)

Lemma bn_at targets vals padded i ch : (i < padded)%nat -> In (i, ch) targets -> (forall c, In (i, c) targets -> c = ch) ->
  at_ (bn_broadcast targets vals padded) i = at_ vals ch.
Proof.
  intros Hi I U. unfold bn_broadcast. rewrite at_map_seq by auto.
  destruct (find _ (rev targets)) as [(i', c)|] eqn:E.
  - apply find_some in E. destruct E as (E & Q). cbn in Q. apply Nat.eqb_eq in Q. subst i'. apply in_rev in E. cbn. now rewrite (U c E).
  - apply in_rev in I. pose proof (find_none _ _ E _ I) as Q. cbn in Q. now rewrite Nat.eqb_refl in Q.
Qed.

Lemma bn_targets_image lay c sz t ch h w : bn_targets (Some lay) c sz = Some t ->
  (match lay with CHW _ _ _ => True | HWC _ _ _ st => (c <= st)%nat end) ->
  (ch < c)%nat -> (h < height lay)%nat -> (w < width lay)%nat ->
  In (position lay ch h w, ch) t /\ forall ch', In (position lay ch h w, ch') t -> ch' = ch.
Proof.
  intros E S Hc Hh Hw. destruct lay as [c0 hd wd|hd wd c0 st]; cbn [bn_targets height width position] in *; injection E as <-.
  - split.
    + apply in_flat_map. exists ch. split; [apply in_seq; lia|]. apply in_map_iff. exists (h * wd + w)%nat. split; [reflexivity|].
      apply in_seq. pose proof (encode_lt h w hd wd Hh Hw). lia.
    + intros ch' H. apply in_flat_map in H. destruct H as (c1 & H1 & H). apply in_map_iff in H. destruct H as (s & H & Hs). injection H as H <-.
      apply in_seq in Hs. pose proof (encode_lt h w hd wd Hh Hw) as Q. apply code_inj in H; [|lia|lia]. tauto.
  - split.
    + apply in_flat_map. exists (h * wd + w)%nat. split; [apply in_seq; pose proof (encode_lt h w hd wd Hh Hw); lia|].
      apply in_map_iff. exists ch. split; [reflexivity|]. apply in_seq. lia.
    + intros ch' H. apply in_flat_map in H. destruct H as (c1 & H1 & H). apply in_map_iff in H. destruct H as (s & H & Hs). injection H as H <-.
      apply in_seq in Hs. apply code_inj in H; lia.
Qed.

Lemma batchnorm_sound p m pf input k l x mn an ms mv ads av o lay : 0 < p ->
  verify p m pf input = true -> layer_at m k l -> l_op l = BatchNorm ->
  (forall l', In l' (firstn k (m_layers m)) -> layout_safe (l_op l')) ->
  aget (l_inputs l) 0 = Some x -> aget (l_inputs l) 1 = Some mn -> aget (l_inputs l) 2 = Some an ->
  hget (l_weights l) mn = Some (ms, mv) -> hget (l_weights l) an = Some (ads, av) ->
  In o (l_outputs l) -> tensor_layout m pf input k x = Some lay ->
  (match lay with CHW _ _ _ => True | HWC _ _ _ st => (List.length mv <= st)%nat end) ->
  (m_exponent m <= 18)%nat /\ tensor_layout m pf input (S k) o = Some lay /\
  exists xs ys, tensor_value m pf input k x = Some xs /\ tensor_value m pf input (S k) o = Some ys /\
    List.length ys = List.length xs /\
    forall c h w, (c < List.length mv)%nat -> (h < height lay)%nat -> (w < width lay)%nat ->
      let i := position lay c h w in (i < List.length ys)%nat ->
      exists r, in_width (m_exponent m) r /\
        (m_alpha m * entry ys i + r - (entry xs i * entry mv c + entry av c)) mod p = 0.
Proof.
  intros Hp V L Hop HLS Hx Hmn Han Hmw Haw Ho Hlay HST. destruct (around_verify _ _ _ _ _ _ V L) as (env & b1 & b2 & s1 & s2 & A).
  pose proof (ar_build _ _ _ _ _ _ _ _ _ _ _ A) as B. pose proof (ar_public _ _ _ _ _ _ _ _ _ _ _ A) as P.
  destruct (ar_tables _ _ _ _ _ _ _ _ _ _ _ A) as (tb & T).
  destruct (obs_same (pf_observed pf) l) as (En & Eop & Ei & Eo & _ & Ew & _).
  assert (AG : agree b1 s1).
  { destruct (ar_pub _ _ _ _ _ _ _ _ _ _ _ A) as (x0 & Ex0 & PP). pose proof (ar_states _ _ _ _ _ _ _ _ _ _ _ A) as SS.
    unfold state_after in SS. inv_step SS. eapply agree_layers; [| |exact SS|exact PP].
    - apply Forall_forall. intros l' Hl'. rewrite obs_layers, firstn_map in Hl'. apply in_map_iff in Hl'. destruct Hl' as (l0 & <- & Hl0).
      match goal with |- layout_safe (l_op ?q) => replace (l_op q) with (l_op l0) end; [now apply HLS|]. 
      symmetry. apply (obs_same (pf_observed pf) l0).
    - unfold init_state in E. inv_step E. injection E as <-. intros y. reflexivity. }
  unfold layer_tables in T. rewrite Eop, Hop in T. apply width_tables_bound in T. cbn [m_exponent apply_observed] in T.
  unfold build_layer in B. rewrite Eop, Hop in B. unfold build_batchnorm in B. rewrite Ei, Hx in B. cbn [obind] in B.
  rewrite (ar_layout _ _ _ _ _ _ _ _ _ _ _ A) in Hlay.
  inv_step B. rename a into nv, E into Env. inv_step B. rename a into xin, E into Exin. cbn [b_nodes add_shred] in Exin. injection B as B. rewrite En, Eo in B.
  cbn [b_layouts add_range add_zero add_shred] in B. rewrite Hlay in B.
  unfold public_layer in P. rewrite Eop, Hop, Ei, Hx in P. cbn [obind] in P. inv_step P. rename a into sz, E into Esz.
  rewrite <- (AG x), Hlay in P. inv_step P. destruct a as (mul, add). injection P as P. rewrite En in P.
  unfold bn_public in E. rewrite Ei, Hmn, Han in E. cbn [obind] in E. rewrite Ew, Hmw, Haw in E. cbn [obind snd] in E.
  inv_step E. apply Nat.eqb_eq in G. inv_step E. rename a into tg, E0 into Etg. injection E as Emul Eadd.
  assert (C : holds p env (Zero (rescale_check (EProd [xin; NShred (SLayer (l_name l) "mul") nv])
      (ENode (NShred (SLayer (l_name l) "add") nv)) (ENode (NShred (SLayer (l_name l) "q") nv))
      (ENode (NShred (SLayer (l_name l) "r") nv)) (m_alpha m))) = true).
  { apply (ar_checks _ _ _ _ _ _ _ _ _ _ _ A). rewrite <- B. left. reflexivity. }
  assert (R := ar_ranges _ _ _ _ _ _ _ _ _ _ _ A (SLayer (l_name l) "r") (NShred (SLayer (l_name l) "r") nv) (m_exponent m) nv).
  specialize (R ltac:(rewrite <- B; left; reflexivity)).
  assert (EM : env (SLayer (l_name l) "mul") = Some mul).
  { rewrite (ar_env _ _ _ _ _ _ _ _ _ _ _ A) by reflexivity. rewrite <- B, <- P.
    cbn [b_manifest add_shred add_zero add_range set_outputs set_layouts sget]. sget_tac. cbn [ps_shreds put_sizes put_shred sget]. now sget_tac. }
  assert (EA : env (SLayer (l_name l) "add") = Some add).
  { rewrite (ar_env _ _ _ _ _ _ _ _ _ _ _ A) by reflexivity. rewrite <- B, <- P.
    cbn [b_manifest add_shred add_zero add_range set_outputs set_layouts sget]. sget_tac. cbn [ps_shreds put_sizes put_shred sget]. now sget_tac. }
  apply rescale_zero in C. destruct C as (vv & vb & vq & vr & Ev & Eb & Eq & Er & L1 & L2 & L3 & H).
  cbn [eval_sector] in Ev, Eb, Eq, Er. destruct R as (vr' & Er' & HR). rewrite Er in Er'. injection Er' as <-.
  change (eval_prod env [xin; NShred (SLayer (l_name l) "mul") nv]) with
    (let* a := eval_node env xin in let* b := eval_node env (NShred (SLayer (l_name l) "mul") nv) in zip_with Z.mul a b) in Ev.
  inv_step Ev. rename a into xs, E into Exs. inv_step Ev. apply eval_shred in E. destruct E as (E & LM). rewrite EM in E. injection E as <-.
  apply zip_with_inv in Ev. destruct Ev as (L4 & L5 & AV). apply eval_shred in Eb. destruct Eb as (Eb & LA). rewrite EA in Eb. injection Eb as <-.
  split; [exact T|].
  split. { rewrite (ar_layout' _ _ _ _ _ _ _ _ _ _ _ A), <- B. cbn [b_layouts set_layouts set_outputs]. now rewrite hputs_in by auto. }
  exists xs, vq.
  split; [rewrite (ar_before _ _ _ _ _ _ _ _ _ _ _ A), Exin; exact Exs|].
  split. { rewrite (ar_after _ _ _ _ _ _ _ _ _ _ _ A), <- B. cbn [b_nodes set_outputs set_layouts]. rewrite hputs_in by auto. exact Eq. }
  split; [lia|]. intros c h w Hc Hh Hw i Hi.
  destruct (HR i ltac:(lia)) as (r & Wr & Cr). exists r. split; [exact Wr|]. specialize (H i ltac:(lia)). rewrite AV in H by lia.
  destruct (bn_targets_image lay _ _ _ c h w Etg HST Hc Hh Hw) as (I1 & I2).
  assert (LP : List.length mul = pow2_for sz) by (rewrite <- Emul; unfold bn_broadcast; now rewrite map_length, seq_length).
  assert (M1 : at_ mul i = entry mv c) by (rewrite <- Emul; apply bn_at; auto; lia).
  assert (M2 : at_ add i = entry av c) by (rewrite <- Eadd; apply bn_at; auto; lia).
  rewrite M1, M2 in H. unfold entry at 1 2. fold (at_ vq i) (at_ xs i).
  apply mod_sub_cong in Cr; [|lia]. apply Z.mod_divide in H; [|lia]. apply mod_sub_cong; [lia|].
  destruct Cr as (a & Cr), H as (b & H). exists (- b - a). lia.
Qed.
