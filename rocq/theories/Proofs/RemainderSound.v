(** What accepted Remainder proofs say about each layer. *)
From Coq Require Import ZArith Znumtheory List Bool Lia String.
From Verif Require Import Base.Array Base.Machine Spec.Numbers Spec.Remainder Spec.RemainderCircuit Model.Remainder.
From Verif Require Import Proofs.RemainderArith Proofs.RemainderBuild Proofs.RemainderPublic.
Import ListNotations.
Local Open Scope Z_scope.

(** ** Signed representatives *)

Lemma signed_spec p x : 0 < p -> exists k, signed p x = x + k * p /\ - p <= 2 * signed p x < p.
Proof.
  intros Hp. unfold signed. pose proof (Z.mod_pos_bound x p Hp). pose proof (Z.div_mod x p ltac:(lia)).
  destruct (Z.ltb_spec (2 * (x mod p)) p).
  - exists (- (x / p)). split; [lia|lia].
  - exists (- (x / p) - 1). split; lia.
Qed.
Lemma signed_unique p x y k : 0 < p -> y = x + k * p -> - p <= 2 * y < p -> signed p x = y.
Proof.
  intros Hp E H. destruct (signed_spec p x Hp) as (k' & E' & H'). assert (k' = k) by nia. nia.
Qed.
Lemma signed_mod p x y : 0 < p -> (x - y) mod p = 0 -> 2 * Z.abs y < p -> signed p x = y.
Proof.
  intros Hp E H. apply Z.mod_divide in E; [|lia]. destruct E as (k & E). apply signed_unique with (- k); lia.
Qed.
Lemma signed_eq p x y : 0 < p -> (x - y) mod p = 0 -> signed p x = signed p y.
Proof.
  intros Hp E. apply Z.mod_divide in E; [|lia]. destruct E as (k & E).
  destruct (signed_spec p y Hp) as (k' & E' & H'). apply signed_unique with (k' - k); lia.
Qed.
Lemma signed_small p x : 2 * Z.abs x < p -> signed p x = x.
Proof. intros H. apply signed_mod; [lia| |auto]. now rewrite Z.sub_diag. Qed.

Lemma mod_sub_cong p a b : 0 < p -> (a - b) mod p = 0 <-> exists k, a = b + k * p.
Proof.
  intros Hp. rewrite Z.mod_divide by lia. split; intros (k & E); exists k; lia.
Qed.

Lemma small_divided p y : 0 < p -> (p | y) -> 0 <= y < p -> y = 0.
Proof. intros Hp D H. apply Z.mod_divide in D; [|lia]. now rewrite Z.mod_small in D. Qed.

(** ** Values and states *)

Lemma obs_layers observed m : m_layers (apply_observed observed m) =
  map (fun l => match hget observed (l_name l) with
                | Some n => mkLayer (l_name l) (l_op l) (l_inputs l) (l_outputs l) (l_shape l) (Some n)
                              (l_weights l) (l_transA l) (l_transB l) (l_kernel l) (l_pads l) (l_strides l) (l_perm l)
                | None => l end) (m_layers m).
Proof. reflexivity. Qed.

Definition obs (observed : hmap nat) (l : layer) : layer :=
  match hget observed (l_name l) with
  | Some n => mkLayer (l_name l) (l_op l) (l_inputs l) (l_outputs l) (l_shape l) (Some n)
                (l_weights l) (l_transA l) (l_transB l) (l_kernel l) (l_pads l) (l_strides l) (l_perm l)
  | None => l end.

Lemma obs_same o l : l_name (obs o l) = l_name l /\ l_op (obs o l) = l_op l /\ l_inputs (obs o l) = l_inputs l /\
  l_outputs (obs o l) = l_outputs l /\ l_shape (obs o l) = l_shape l /\ l_weights (obs o l) = l_weights l /\
  l_transA (obs o l) = l_transA l /\ l_transB (obs o l) = l_transB l /\ l_kernel (obs o l) = l_kernel l /\
  l_pads (obs o l) = l_pads l /\ l_strides (obs o l) = l_strides l /\ l_perm (obs o l) = l_perm l.
Proof. unfold obs. destruct (hget o (l_name l)); cbn; repeat split. Qed.

Lemma obs_bits pf l : width_set pf l -> exists n, l_bits (obs (pf_observed pf) l) = Some n /\
  layer_bits (pf_observed pf) (obs (pf_observed pf) l) = Some n.
Proof.
  intros H. unfold layer_bits. rewrite (proj1 (obs_same _ l)). unfold obs.
  destruct (hget (pf_observed pf) (l_name l)) eqn:E; cbn; [eauto|]. unfold width_set in H. rewrite E in H. destruct H as [H|H]; [|congruence].
  destruct (l_bits l); [eauto|congruence].
Qed.

Lemma obs_width pf l n : width_is pf l n -> l_bits (obs (pf_observed pf) l) = Some n /\
  layer_bits (pf_observed pf) (obs (pf_observed pf) l) = Some n.
Proof.
  intros H. unfold layer_bits. rewrite (proj1 (obs_same _ l)). unfold obs, width_is in *.
  destruct (hget (pf_observed pf) (l_name l)) eqn:E; cbn; [subst; auto|]. auto.
Qed.

(** Everything about layer [k] of an accepted proof. *)
Record around (p : Z) (m : model) (pf : proof) (input : list Z) (k : nat) (l : layer)
  (env : shred -> option (list Z)) (b1 b2 : bstate) (s1 s2 : pstate) : Prop := {
  ar_build : build_layer (apply_observed (pf_observed pf) m) (obs (pf_observed pf) l) b1 = Some b2;
  ar_public : public_layer (obs (pf_observed pf) l) s1 = Some s2;
  ar_before : forall x, tensor_value m pf input k x = (let* n := hget (b_nodes b1) x in eval_node env n);
  ar_after : forall x, tensor_value m pf input (S k) x = (let* n := hget (b_nodes b2) x in eval_node env n);
  ar_layout : forall x, tensor_layout m pf input k x = hget (b_layouts b1) x;
  ar_layout' : forall x, tensor_layout m pf input (S k) x = hget (b_layouts b2) x;
  ar_checks : forall c, In c (b_checks b2) -> holds p env c = true;
  ar_ranges : forall s n t nv, In (s, n, t, nv) (b_ranges b2) ->
     exists v, eval_node env n = Some v /\
       forall i, (i < List.length v)%nat -> exists y, in_width t y /\ (at_ v i - y) mod p = 0;
  ar_env : forall s, owned (l_name l) s -> env s = match sget (b_manifest b2) s with
                                            | Some (_, Public) => sget (ps_shreds s2) s
                                            | Some (_, Committed) => sget (pf_committed pf) s
                                            | None => None end;
  ar_fresh : forall s, owned (l_name l) s -> sget (ps_shreds s1) s = None;
  ar_states : state_after m pf input k = Some b1;
  ar_pub : exists x, aget (m_inputs m) 0 = Some x /\ for_each (firstn k (m_layers (apply_observed (pf_observed pf) m))) public_layer
     (mkP [(SInput x, pad_to_size input (pow2_for (List.length input)))] [(x, pow2_for (List.length input))] (input_layouts m)) = Some s1;
  ar_tables : exists t, layer_tables (apply_observed (pf_observed pf) m) (pf_observed pf) (obs (pf_observed pf) l) = Some t
}.

Lemma names_obs o m : map l_name (m_layers (apply_observed o m)) = map l_name (m_layers m).
Proof.
  rewrite obs_layers, map_map. apply map_ext. intros l. exact (proj1 (obs_same o l)).
Qed.
Lemma nth_obs o m k l : nth_error (m_layers m) k = Some l -> nth_error (m_layers (apply_observed o m)) k = Some (obs o l).
Proof. intros H. rewrite obs_layers, nth_error_map, H. reflexivity. Qed.

Section TensorValue.
Context {p : Z} {m : model} {pf : proof} {input : list Z} {env : shred -> option (list Z)}.
Context {public : list (shred * list Z)} {checks : list check} {man : manifest}.
Context {b0 bf : bstate} {out : string} {nv : nat} {outn : node} {x : string} {s0 sf : pstate}.
Hypothesis AC : accepted p (apply_observed (pf_observed pf) m) pf input env public checks man b0 bf out nv outn x s0 sf.

Lemma circuit_env_eq : circuit_env m pf input = Some env.
Proof.
  unfold circuit_env. rewrite (ac_public _ _ _ _ _ _ _ _ _ _ _ _ _ _ _ _ AC). cbn [obind].
  rewrite (ac_circuit _ _ _ _ _ _ _ _ _ _ _ _ _ _ _ _ AC). cbn.
  now rewrite (ac_env _ _ _ _ _ _ _ _ _ _ _ _ _ _ _ _ AC).
Qed.
Lemma state_after_eq k b : build_layers (apply_observed (pf_observed pf) m) (firstn k (m_layers (apply_observed (pf_observed pf) m))) b0 = Some b ->
  state_after m pf input k = Some b.
Proof.
  intros H. unfold state_after. rewrite (bt_init _ _ _ _ _ _ _ _ _ (ac_built _ _ _ _ _ _ _ _ _ _ _ _ _ _ _ _ AC)). exact H.
Qed.
Lemma tensor_value_eq k b y : state_after m pf input k = Some b ->
  tensor_value m pf input k y = (let* n := hget (b_nodes b) y in eval_node env n).
Proof. intros H. unfold tensor_value. rewrite circuit_env_eq. cbn [obind]. now rewrite H. Qed.
Lemma tensor_layout_eq k b y : state_after m pf input k = Some b -> tensor_layout m pf input k y = hget (b_layouts b) y.
Proof. intros H. unfold tensor_layout. now rewrite H. Qed.

Lemma around_layer k l : layer_at m k l -> exists b1 b2 s1 s2, around p m pf input k l env b1 b2 s1 s2.
Proof.
  intros (N & ND). apply (nth_obs (pf_observed pf)) in N. rewrite <- (names_obs (pf_observed pf)) in ND.
  destruct (at_layer AC k _ ND N) as (b1 & b2 & s1 & s2 & H1 & H2 & H3 & K1 & K2 & K3 & HC & HR & HE & HF).
  exists b1, b2, s1, s2. apply state_after_eq in H1, H3.
  constructor; auto.
  - intros. now apply tensor_value_eq.
  - intros. now apply tensor_value_eq.
  - intros. now apply tensor_layout_eq.
  - intros. now apply tensor_layout_eq.
  - intros s n t nv' Hr. apply (range_check_sound p env (s, n, t, nv')); [apply (env_table AC)|].
    intros c Hc. eapply HR; eauto.
  - rewrite (proj1 (obs_same (pf_observed pf) l)) in HE. exact HE.
  - rewrite (proj1 (obs_same (pf_observed pf) l)) in HF. exact HF.
  - pose proof (ac_prep _ _ _ _ _ _ _ _ _ _ _ _ _ _ _ _ AC) as P. exists x. split; [exact (pr_input _ _ _ _ _ _ _ _ P)|].
    rewrite (pr_init _ _ _ _ _ _ _ _ P) in K1. exact K1.
  - apply (plan_width AC). eapply nth_error_In; eauto.
Qed.
End TensorValue.

Lemma around_verify p m pf input k l : verify p m pf input = true -> layer_at m k l ->
  exists env b1 b2 s1 s2, around p m pf input k l env b1 b2 s1 s2.
Proof.
  intros H L. apply verify_inv in H.
  destruct H as (env & public & checks & man & b0 & bf & out & nv & outn & x & s0 & sf & AC).
  destruct (around_layer AC k l L) as (b1 & b2 & s1 & s2 & A). exists env, b1, b2, s1, s2. exact A.
Qed.

(** ** Input and output *)

Lemma pow2_pow2 n : pow2_for (pow2_for n) = pow2_for n.
Proof. unfold pow2_for, nvars. now rewrite Nat.log2_up_pow2 by lia. Qed.
Lemma nvars_pow2 n : (2 ^ nvars (pow2_for n))%nat = pow2_for n.
Proof. apply pow2_pow2. Qed.

Lemma input_value p m pf input x : verify p m pf input = true -> m_inputs m = [x] ->
  tensor_value m pf input 0 x = Some (pad_to_size input (pow2_for (List.length input))).
Proof.
  intros H Hx. apply verify_inv in H.
  destruct H as (env & public & checks & man & b0 & bf & out & nv & outn & x' & s0 & sf & AC).
  pose proof (bt_init _ _ _ _ _ _ _ _ _ (ac_built _ _ _ _ _ _ _ _ _ _ _ _ _ _ _ _ AC)) as I.
  destruct (init_manifest _ _ _ I) as (x2 & E2 & Eb). change (m_inputs (apply_observed (pf_observed pf) m)) with (m_inputs m) in E2.
  rewrite Hx in E2. injection E2 as <-.
  pose proof (pr_input _ _ _ _ _ _ _ _ (ac_prep _ _ _ _ _ _ _ _ _ _ _ _ _ _ _ _ AC)) as Q.
  change (m_inputs (apply_observed (pf_observed pf) m)) with (m_inputs m) in Q. rewrite Hx in Q. injection Q as <-.
  rewrite (tensor_value_eq AC 0 b0) by (apply (state_after_eq AC); reflexivity).
  rewrite Eb. cbn [b_nodes hget]. rewrite String.eqb_refl. cbn [obind eval_node].
  rewrite (env_input AC). cbn [obind]. rewrite pad_length, nvars_pow2, Nat.eqb_refl. reflexivity.
Qed.

Lemma output_value p m pf input o : verify p m pf input = true -> m_outputs m = [o] ->
  exists ys, tensor_value m pf input (List.length (m_layers m)) o = Some ys /\
    List.length ys = pow2_for (List.length (pf_expected pf)) /\
    forall i, (i < List.length ys)%nat -> (at_ ys i - at_ (pf_expected pf) i) mod p = 0.
Proof.
  intros H Hx. apply verify_inv in H.
  destruct H as (env & public & checks & man & b0 & bf & out & nv & outn & x' & s0 & sf & AC).
  pose proof (ac_built _ _ _ _ _ _ _ _ _ _ _ _ _ _ _ _ AC) as B.
  pose proof (bt_out _ _ _ _ _ _ _ _ _ B) as Eo. change (m_outputs (apply_observed (pf_observed pf) m)) with (m_outputs m) in Eo.
  rewrite Hx in Eo. injection Eo as <-.
  pose proof (bt_layers _ _ _ _ _ _ _ _ _ B) as EL.
  assert (SA : state_after m pf input (List.length (m_layers m)) = Some bf).
  { apply (state_after_eq AC). rewrite firstn_all2; [exact EL|]. now rewrite obs_layers, map_length. }
  rewrite (tensor_value_eq AC _ _ _ SA), (bt_node _ _ _ _ _ _ _ _ _ B). cbn [obind].
  pose proof (ac_holds _ _ _ _ _ _ _ _ _ _ _ _ _ _ _ _ AC _ (bt_output _ _ _ _ _ _ _ _ _ B)) as Z0.
  apply holds_zero in Z0. destruct Z0 as (v & Ev & Hv). cbn [eval_sector] in Ev.
  destruct (eval_node env outn) as [ys|]; [|discriminate]. cbn [obind] in Ev. inv_step Ev.
  apply eval_shred in E. destruct E as (E & L). rewrite (env_expected AC) in E. injection E as <-.
  apply zip_with_inv in Ev. destruct Ev as (L1 & L2 & A). exists ys. split; [reflexivity|].
  rewrite pad_length in L1. split; [lia|]. intros i Hi. specialize (Hv i ltac:(lia)). rewrite A in Hv by auto.
  rewrite at_pad in Hv by apply le_pow2_for. exact Hv.
Qed.

(** ** Tools for single layers *)

Lemma shred_neq a b : a <> b -> shred_eqb a b = false.
Proof. intros H. destruct (shred_eqb_spec a b); congruence. Qed.

Ltac sget_tac := repeat first [rewrite shred_eqb_refl | rewrite shred_neq by congruence].

(** A difference [a - b - c] of vectors that vanishes. *)
Lemma sub_sub_zero p env a b c : holds p env (Zero (ESub (ESub a b) c)) = true ->
  exists va vb vc, eval_sector env a = Some va /\ eval_sector env b = Some vb /\ eval_sector env c = Some vc /\
    List.length vb = List.length va /\ List.length vc = List.length va /\
    forall i, (i < List.length va)%nat -> (at_ va i - at_ vb i - at_ vc i) mod p = 0.
Proof.
  intros H. apply holds_zero in H. destruct H as (v & Ev & Hv). cbn [eval_sector] in Ev.
  destruct (eval_sector env a) as [va|]; [|discriminate]. destruct (eval_sector env b) as [vb|]; [|discriminate]. cbn [obind] in Ev.
  inv_step Ev. destruct (eval_sector env c) as [vc|]; [|discriminate]. cbn [obind] in Ev.
  apply zip_with_inv in E, Ev. destruct E as (L1 & L2 & A1), Ev as (L3 & L4 & A2).
  exists va, vb, vc. do 3 (split; [reflexivity|]). split; [lia|]. split; [lia|]. intros i Hi.
  specialize (Hv i ltac:(lia)). rewrite A2, A1 in Hv by lia. exact Hv.
Qed.

(** ** Relu *)

Lemma relu_arith p x mx di dz yi yz w : prime p -> 2 ^ (Z.of_nat w + 2) < p ->
  (mx - x - di) mod p = 0 -> (mx - 0 - dz) mod p = 0 -> (di * dz) mod p = 0 ->
  in_width w yi -> (di - yi) mod p = 0 -> in_width w yz -> (dz - yz) mod p = 0 ->
  signed p mx = relu (signed p x) /\ Z.abs (signed p x) < 2 ^ Z.of_nat w.
Proof.
  intros Pp Hp H1 H2 H3 Wi Ci Wz Cz. pose proof (prime_ge_2 p Pp). unfold in_width in *.
  rewrite Z.pow_add_r in Hp by lia. change (2 ^ 2) with 4 in Hp.
  assert (Xs : signed p x = yz - yi).
  { apply signed_mod; [lia| |lia]. apply mod_sub_cong in Ci, Cz; try lia. apply Z.mod_divide in H1, H2; try lia.
    apply Z.mod_divide; [lia|]. destruct Ci as (a & Ci), Cz as (b & Cz), H1 as (c & H1), H2 as (d & H2).
    exists (d - c + b - a). lia. }
  assert (Ms : signed p mx = yz).
  { apply signed_mod; [lia| |lia]. apply mod_sub_cong in Cz; try lia. apply Z.mod_divide in H2; try lia.
    apply Z.mod_divide; [lia|]. destruct Cz as (b & Cz), H2 as (d & H2). exists (d + b). lia. }
  assert (Pr : yi * yz = 0).
  { apply Z.mod_divide in H3; [|lia]. apply prime_mult in H3; [|exact Pp].
    apply Z.mod_divide in Ci, Cz; try lia.
    destruct H3 as [D|D].
    - assert (D' : (p | yi)) by (replace yi with (di - (di - yi)) by lia; now apply Z.divide_sub_r).
      rewrite (small_divided p yi) by (auto; lia). ring.
    - assert (D' : (p | yz)) by (replace yz with (dz - (dz - yz)) by lia; now apply Z.divide_sub_r).
      rewrite (small_divided p yz) by (auto; lia). ring. }
  rewrite Xs, Ms. split; [|lia]. unfold relu. apply Z.mul_eq_0 in Pr.
  destruct (Z.leb_spec 0 (yz - yi)); lia.
Qed.

Lemma relu_width p m pf input k l n x o : prime p -> 2 ^ 20 < p ->
  verify p m pf input = true -> layer_at m k l -> l_op l = Relu -> width_is pf l n ->
  aget (l_inputs l) 0 = Some x -> In o (l_outputs l) ->
  (n <= m_exponent m + 18)%nat /\
  exists xs ys, tensor_value m pf input k x = Some xs /\ tensor_value m pf input (S k) o = Some ys /\
    List.length ys = List.length xs /\
    forall i, (i < List.length xs)%nat ->
      signed p (at_ ys i) = relu (signed p (at_ xs i)) /\
      Z.abs (signed p (at_ xs i)) < 2 ^ Z.of_nat (Nat.max (n - m_exponent m) 1).
Proof.
  intros Pp Hp V L Hop Hw Hx Ho. destruct (around_verify _ _ _ _ _ _ V L) as (env & b1 & b2 & s1 & s2 & A).
  destruct (obs_width pf l n Hw) as (Eb & Elb).
  pose proof (ar_build _ _ _ _ _ _ _ _ _ _ _ A) as B. pose proof (ar_public _ _ _ _ _ _ _ _ _ _ _ A) as P.
  destruct (ar_tables _ _ _ _ _ _ _ _ _ _ _ A) as (tb & T).
  destruct (obs_same (pf_observed pf) l) as (En & Eop & Ei & Eo & _).
  unfold build_layer in B. rewrite Eop, Hop in B. unfold build_relu in B. rewrite Ei, Hx, Eb, En, Eo in B. cbn [obind] in B.
  inv_step B. rename a into nv, E into Env. cbn [b_nodes add_shred] in B. inv_step B. rename a into xin, E into Exin.
  unfold public_layer in P. rewrite Eop, Hop, Ei, Hx, En in P. cbn [obind] in P. inv_step P. rename a into sz.
  unfold layer_tables in T. rewrite Eop, Hop, Elb in T. apply width_tables_bound in T.
  set (w := delta_table_nv n (m_exponent (apply_observed (pf_observed pf) m))) in *.
  injection B as B. injection P as P.
  assert (C1 : holds p env (Zero (ESub (ESub (ENode (NShred (SLayer (l_name l) "max") nv)) (ENode xin)) (ENode (NShred (SLayer (l_name l) "di") nv)))) = true).
  { apply (ar_checks _ _ _ _ _ _ _ _ _ _ _ A). rewrite <- B. cbn. auto. }
  assert (C2 : holds p env (Zero (ESub (ESub (ENode (NShred (SLayer (l_name l) "max") nv)) (ENode (NShred (SLayer (l_name l) "zero") nv))) (ENode (NShred (SLayer (l_name l) "dz") nv)))) = true).
  { apply (ar_checks _ _ _ _ _ _ _ _ _ _ _ A). rewrite <- B. cbn. auto. }
  assert (C3 : holds p env (Zero (EProd [NShred (SLayer (l_name l) "di") nv; NShred (SLayer (l_name l) "dz") nv])) = true).
  { apply (ar_checks _ _ _ _ _ _ _ _ _ _ _ A). rewrite <- B. cbn. auto. }
  assert (R1 := ar_ranges _ _ _ _ _ _ _ _ _ _ _ A (SLayer (l_name l) "di") (NShred (SLayer (l_name l) "di") nv) w nv).
  specialize (R1 ltac:(rewrite <- B; cbn; auto)).
  assert (R2 := ar_ranges _ _ _ _ _ _ _ _ _ _ _ A (SLayer (l_name l) "dz") (NShred (SLayer (l_name l) "dz") nv) w nv).
  specialize (R2 ltac:(rewrite <- B; cbn; auto)).
  assert (EZ : env (SLayer (l_name l) "zero") = Some (repeat 0 (pow2_for sz))).
  { rewrite (ar_env _ _ _ _ _ _ _ _ _ _ _ A) by reflexivity. rewrite <- B, <- P. cbn [b_manifest add_shred add_zero add_range set_outputs set_layouts sget].
    sget_tac. cbn [ps_shreds put_sizes put_shred sget]. now sget_tac. }
  destruct R1 as (di & Edi & Hdi), R2 as (dz & Edz & Hdz).
  apply sub_sub_zero in C1. destruct C1 as (mx & xs & di' & Emx & Exs & Edi' & L1 & L2 & H1).
  cbn [eval_sector] in Emx, Exs, Edi'. rewrite Edi in Edi'. injection Edi' as <-.
  apply sub_sub_zero in C2. destruct C2 as (mx' & zs & dz' & Emx' & Ezs & Edz' & L3 & L4 & H2).
  cbn [eval_sector] in Emx', Ezs, Edz'. rewrite Emx in Emx'. injection Emx' as <-. rewrite Edz in Edz'. injection Edz' as <-.
  apply eval_shred in Ezs. destruct Ezs as (Ezs & _). rewrite EZ in Ezs. injection Ezs as <-.
  apply holds_zero in C3. destruct C3 as (pr & Epr & Hpr). cbn [eval_sector eval_prod] in Epr. rewrite Edi, Edz in Epr. cbn [obind] in Epr.
  apply zip_with_inv in Epr. destruct Epr as (L5 & L6 & A3).
  split. { unfold w, delta_table_nv in T. cbn [m_exponent apply_observed] in T. lia. }
  exists xs, mx.
  split; [rewrite (ar_before _ _ _ _ _ _ _ _ _ _ _ A), Exin; exact Exs|].
  split.
  { rewrite (ar_after _ _ _ _ _ _ _ _ _ _ _ A), <- B. cbn [b_nodes set_layouts set_outputs].
    rewrite hputs_in by auto. exact Emx. }
  split; [lia|]. intros i Hi.
  destruct (Hdi i ltac:(lia)) as (yi & Wi & Ci). destruct (Hdz i ltac:(lia)) as (yz & Wz & Cz).
  specialize (H1 i ltac:(lia)). specialize (H2 i ltac:(lia)). specialize (Hpr i ltac:(lia)). rewrite A3 in Hpr by lia.
  unfold at_ at 2 in H2. rewrite nth_repeat in H2.
  assert (W18 : 2 ^ Z.of_nat w <= 2 ^ 18) by (apply Z.pow_le_mono_r; lia).
  assert (Wp : 2 ^ (Z.of_nat w + 2) < p).
  { rewrite Z.pow_add_r by lia. change (2 ^ 2) with 4. change (2 ^ 20) with (2 ^ 18 * 4) in Hp. lia. }
  exact (relu_arith p _ _ _ _ _ _ _ Pp Wp H1 H2 Hpr Wi Ci Wz Cz).
Qed.

Lemma relu_sound p m pf input k l x o : prime p -> 2 ^ 20 < p ->
  verify p m pf input = true -> layer_at m k l -> l_op l = Relu -> width_set pf l ->
  aget (l_inputs l) 0 = Some x -> In o (l_outputs l) ->
  exists xs ys, tensor_value m pf input k x = Some xs /\ tensor_value m pf input (S k) o = Some ys /\
    List.length ys = List.length xs /\
    forall i, (i < List.length xs)%nat ->
      signed p (at_ ys i) = relu (signed p (at_ xs i)) /\ Z.abs (signed p (at_ xs i)) < 2 ^ 18.
Proof.
  intros Pp Hp V L Hop Hw Hx Ho.
  assert (W : exists n, width_is pf l n).
  { unfold width_is. unfold width_set in Hw. destruct (hget (pf_observed pf) (l_name l)); [eauto|].
    destruct (l_bits l); [eauto|]. destruct Hw; congruence. }
  destruct W as (n & W). destruct (relu_width p m pf input k l n x o Pp Hp V L Hop W Hx Ho) as (Hn & xs & ys & E1 & E2 & EL & H).
  exists xs, ys. do 3 (split; [assumption|]). intros i Hi. destruct (H i Hi) as (H1 & H2). split; [exact H1|].
  eapply Z.lt_le_trans; [exact H2|]. apply Z.pow_le_mono_r; lia.
Qed.
