(** The sequential and the parallel GKR verifier refine the verifier without scratch pads. *)
From Coq Require Import List Bool Arith Lia Ring Field.
From Verif Require Import Base.Field Base.Array Base.Poly Spec.Multilinear Spec.Gkr Model.Polynomials Model.Layered Model.Gkr
  Proofs.Multilinear Proofs.Polynomials Proofs.GkrClean.
Import ListNotations.

Ltac inv_some H := injection H; clear H; intros; subst.

Section Proofs.
Variable K : field.
Add Field Kf : (fth K).
Local Open Scope fld_scope.
Variables simd_vars mpi_vars : nat.
Local Notation player := (player K).
Local Notation ch_ok := (ch_ok K simd_vars mpi_vars).
Local Notation npub pub := (length pub / 2 ^ mpi_vars)%nat.

(** ** One layer, one transcript *)
Section Transcript.
Variable T : Type.
Variable append : K -> T -> T.
Variable sample : T -> option (K * T).
Local Notation verify_step := (verify_sumcheck_step K T append sample).
Local Notation verify_rounds := (verify_rounds K T append sample).
Local Notation verify_layer := (verify_layer K simd_vars mpi_vars T append sample).
Local Notation clean_layer := (clean_layer K simd_vars mpi_vars T append sample).

Lemma rounds_length lag n d : forall b s rs rd t b' s' rs' rd' t',
  verify_rounds lag n d b s rs rd t = Some (b', s', rs', rd', t') -> length rs' = (length rs + n)%nat.
Proof.
  induction n as [|n IH]; intros b s rs rd t b' s' rs' rd' t' E; cbn [Gkr.verify_rounds] in E.
  - inv_some E. lia.
  - destruct (verify_step lag d s rd t) as [[[[[v s1] r] rd1] t1]|]; [|discriminate]. cbn [obind] in E.
    apply IH in E. rewrite app_length in E. cbn in E. lia.
Qed.

Lemma clean_layer_ch lag l pub ch v0 v1 alpha rd t b ch' v0' v1' rd' t' :
  clean_layer lag l pub ch v0 v1 alpha rd t = Some (b, ch', v0', v1', rd', t') ->
  ch_ok (pl_ivars K l) ch' /\ same_none (rz_1 ch') v1' = true.
Proof.
  unfold GkrClean.clean_layer. intros E.
  match type of E with context [verify_rounds lag (pl_ivars K l) 2 true ?s [] rd t] =>
    destruct (verify_rounds lag (pl_ivars K l) 2 true s [] rd t) as [[[[[b1 s1] rx] rd1] t1]|] eqn:E1; [|discriminate] end.
  cbn [obind] in E.
  destruct (verify_rounds lag simd_vars 3 b1 s1 [] rd1 t1) as [[[[[b2 s2] rs] rd2] t2]|] eqn:E2; [|discriminate]. cbn [obind] in E.
  destruct (verify_rounds lag mpi_vars 3 b2 s2 [] rd2 t2) as [[[[[b3 s3] rm] rd3] t3]|] eqn:E3; [|discriminate]. cbn [obind] in E.
  apply rounds_length in E1, E2, E3. cbn [length] in *.
  destruct (try_deserialize_field K rd3) as [[vx okx] rd4]. destruct (negb (empty (pl_mul K l))).
  - match type of E with context [verify_rounds lag (pl_ivars K l) 2 ?b ?s [] rd4 ?t] =>
      destruct (verify_rounds lag (pl_ivars K l) 2 b s [] rd4 t) as [[[[[b5 s5] ry] rd5] t5]|] eqn:E5; [|discriminate] end.
    cbn [obind] in E. apply rounds_length in E5. cbn [length] in *.
    destruct (try_deserialize_field K rd5) as [[vy oky] rd6]. inv_some E. split; [|reflexivity].
    constructor; cbn; auto. intros z Ez. now inv_some Ez.
  - inv_some E. split; [|reflexivity]. constructor; cbn; auto. discriminate.
Qed.

Lemma verify_layer_clean M lag l pub ch v0 v1 alpha (is_out par : bool) rd t sp :
  pad_ok K simd_vars mpi_vars M lag sp -> ch_ok (pl_ovars K l) ch ->
  (pl_ovars K l <= M)%nat -> (pl_ivars K l <= M)%nat ->
  layer_ok (npub pub) l -> simd_ok simd_vars pub ->
  same_none (rz_1 ch) v1 = true -> same_none (rz_1 ch) alpha = true ->
  (if par then True else if (is_out : bool) then rz_1 ch = None else ready K M ch sp) ->
  match clean_layer lag l pub ch v0 v1 alpha rd t with
  | None => verify_layer l pub ch v0 v1 alpha is_out par rd t sp = None
  | Some (b, ch', v0', v1', rd', t') =>
    exists sp', verify_layer l pub ch v0 v1 alpha is_out par rd t sp = Some (b, ch', v0', v1', rd', t', sp') /\
      pad_ok K simd_vars mpi_vars M lag sp' /\ ready K M ch' sp'
  end.
Proof.
  intros P C HMo HMi (Hmul & Hadd & Hcst & Huni) Hp S1 S2 Hr.
  unfold Gkr.verify_layer. rewrite S1, S2. cbn [guard obind].
  assert (S3 : same_none alpha (rz_1 ch) = true) by (destruct alpha, (rz_1 ch); auto).
  assert (G : exists sp1, (if par then prepare_layer_non_sequential K l alpha ch sp else prepare_layer K l alpha ch is_out sp) = Some sp1 /\
    prepared K simd_vars mpi_vars M lag ch alpha (pl_ovars K l) sp1).
  { destruct par; [now apply prepare_non_seq_ok|]. apply prepare_layer_ok; auto. }
  destruct G as (sp1 & E & Pr). rewrite E. cbn [obind]. clear E Hr P sp.
  rewrite (eval_cst_ok K simd_vars mpi_vars M lag ch alpha (pl_ovars K l) sp1 (pl_const K l) pub Pr C Hp Hcst). cbn [obind].
  unfold GkrClean.clean_layer. cbv zeta. pose proof Pr as [P Z Es Em Rs Rm]. pose proof P as []. rewrite ok_lag.
  match goal with |- context [verify_rounds lag (pl_ivars K l) 2 true ?s [] rd t] => 
    destruct (verify_rounds lag (pl_ivars K l) 2 true s [] rd t) as [[[[[b1 s1] rx] rd1] t1]|] eqn:E1; [|reflexivity] end.
  cbn [obind]. apply rounds_length in E1. cbn [length Nat.add] in E1.
  assert (HX := pow_le _ _ HMi).
  assert (HXp : (2 ^ pl_ivars K l <= part_size simd_vars mpi_vars M)%nat) by (unfold part_size; lia).
  destruct (eq_eval_pre K rx (eq_evals_at_rx sp1) (eq_evals_first_part sp1) (eq_evals_second_part sp1) (2 ^ M) (part_size simd_vars mpi_vars M))
    as (tx & p1 & p2 & Ex & Ax & L1 & L2); auto; try (rewrite E1; auto).
  unfold set_rx. rewrite Ex. cbn [obind]. set (sp2 := with_rx K sp1 tx p1 p2).
  destruct (verify_rounds lag simd_vars 3 b1 s1 [] rd1 t1) as [[[[[b2 s2] rs] rd2] t2]|] eqn:E2; [|reflexivity]. cbn [obind].
  set (sp3 := set_r_simd_xy K rs sp2).
  destruct (verify_rounds lag mpi_vars 3 b2 s2 [] rd2 t2) as [[[[[b3 s3] rm] rd3] t3]|] eqn:E3; [|reflexivity]. cbn [obind].
  set (sp4 := set_r_mpi_xy K rm sp3).
  destruct (try_deserialize_field K rd3) as [[vx okx] rd4] eqn:E4.
  assert (Pr4 : prepared K simd_vars mpi_vars M lag ch alpha (pl_ovars K l) sp4).
  { constructor; auto. constructor; auto. now destruct Ax. }
  rewrite E1 in Ax.
  assert (Ex4 : eq_r_simd_r_simd_xy sp4 = eq_vec (r_simd ch) rs) by (cbn; now rewrite Rs).
  assert (Em4 : eq_r_mpi_r_mpi_xy sp4 = eq_vec (r_mpi ch) rm) by (cbn; now rewrite Rm).
  rewrite (eval_add_ok K simd_vars mpi_vars M lag ch alpha (pl_ovars K l) (pl_ivars K l) sp4 (pl_add K l) rx rs rm Pr4 Ax Ex4 Em4 Hadd).
  cbn [obind].
  destruct (negb (empty (pl_mul K l))).
  - match goal with |- context [verify_rounds lag (pl_ivars K l) 2 ?b ?s [] rd4 ?t] => 
      destruct (verify_rounds lag (pl_ivars K l) 2 b s [] rd4 t) as [[[[[b5 s5] ry] rd5] t5]|] eqn:E5; [|reflexivity] end.
    cbn [obind]. apply rounds_length in E5. cbn [length Nat.add] in E5.
    destruct (eq_eval_pre K ry (eq_evals_at_ry sp4) (eq_evals_first_part sp4) (eq_evals_second_part sp4) (2 ^ M) (part_size simd_vars mpi_vars M))
      as (ty & q1 & q2 & Ey & Ay & L3 & L4); auto; try (rewrite E5; auto).
    unfold set_ry. rewrite Ey. cbn [obind]. set (sp5 := with_ry K sp4 ty q1 q2).
    destruct (try_deserialize_field K rd5) as [[vy oky] rd6] eqn:E6. rewrite E5 in Ay.
    assert (Pr5 : prepared K simd_vars mpi_vars M lag ch alpha (pl_ovars K l) sp5).
    { destruct Pr4 as [[] ? ? ? ? ?]. constructor; auto. constructor; auto. now destruct Ay. }
    rewrite (eval_mul_ok K simd_vars mpi_vars M lag ch alpha (pl_ovars K l) (pl_ivars K l) sp5 (pl_mul K l) rx ry rs rm Pr5 Ax Ay Ex4 Em4 Hmul).
    cbn [obind]. exists sp5. split; [reflexivity|]. split; [apply Pr5|]. split; cbn [rz_0 rz_1]; [now rewrite E1|].
    intros z Hz. inv_some Hz. now rewrite E5.
  - exists sp4. split; [reflexivity|]. split; [apply Pr4|]. split; cbn [rz_0 rz_1]; [now rewrite E1|]. discriminate.
Qed.

(** Layers, from the last to the first, that fit on an output of [n] variables. *)
Fixpoint fits (M n : nat) (ls : list player) : Prop :=
  match ls with [] => True | l :: r => pl_ovars K l = n /\ (pl_ovars K l <= M)%nat /\ (pl_ivars K l <= M)%nat /\ fits M (pl_ivars K l) r end.

Lemma alpha_same ch t a t' : sample_alpha K T sample ch t = Some (a, t') -> same_none (rz_1 ch) a = true.
Proof.
  unfold sample_alpha. destruct (rz_1 ch).
  - destruct (sample t) as [[x u]|]; cbn; [|discriminate]. intros E. now inv_some E.
  - intros E. now inv_some E.
Qed.

Lemma verify_layers_clean M lag pub : simd_ok simd_vars pub -> forall ls n is_out b ch v0 v1 alpha rd t sp,
  fits M n ls -> (forall l, In l ls -> layer_ok (npub pub) l) ->
  pad_ok K simd_vars mpi_vars M lag sp -> ch_ok n ch ->
  same_none (rz_1 ch) v1 = true -> same_none (rz_1 ch) alpha = true ->
  (if (is_out : bool) then rz_1 ch = None else ready K M ch sp) ->
  verify_layers K simd_vars mpi_vars T append sample ls is_out pub b ch v0 v1 alpha rd t sp
  = clean_layers K simd_vars mpi_vars T append sample lag ls pub b ch v0 v1 alpha rd t.
Proof.
  intros Hp. induction ls as [|l ls IH]; intros n is_out b ch v0 v1 alpha rd t sp HF HL P C S1 S2 Hr; [reflexivity|].
  destruct HF as (En & HMo & HMi & HF). cbn [verify_layers clean_layers].
  rewrite <- En in C.
  assert (G := verify_layer_clean M lag l pub ch v0 v1 alpha is_out false rd t sp P C HMo HMi (HL l (or_introl eq_refl)) Hp S1 S2 Hr).
  destruct (clean_layer lag l pub ch v0 v1 alpha rd t) as [[[[[[cur ch'] v0'] v1'] rd'] t']|] eqn:E; [|now rewrite G].
  destruct G as (sp' & E' & P' & R'). rewrite E'. cbn [obind]. apply clean_layer_ch in E. destruct E as (C' & S').
  destruct (sample_alpha K T sample ch' t') as [[a t'']|] eqn:Ea; [|reflexivity]. cbn [obind].
  apply IH with (pl_ivars K l); auto. { intros; apply HL; now right. } now apply alpha_same with t' t''.
Qed.

Lemma samples_length n : forall t cs t', samples K T sample n t = Some (cs, t') -> length cs = n.
Proof.
  induction n as [|n IH]; cbn [samples]; intros t cs t' E; [now inv_some E|].
  destruct (sample t) as [[c u]|]; [|discriminate]. cbn [obind] in E.
  destruct (samples K T sample n u) as [[cs' u']|] eqn:E'; [|discriminate]. cbn [obind] in E. inv_some E. cbn. f_equal. eauto.
Qed.
Lemma sample_ch_ok n t ch t' : sample_from_transcript K simd_vars mpi_vars T sample n t = Some (ch, t') -> ch_ok n ch /\ rz_1 ch = None.
Proof.
  unfold sample_from_transcript. intros E.
  destruct (samples K T sample n t) as [[a u]|] eqn:E1; [|discriminate]. cbn [obind] in E.
  destruct (samples K T sample simd_vars u) as [[b u']|] eqn:E2; [|discriminate]. cbn [obind] in E.
  destruct (samples K T sample mpi_vars u') as [[c u'']|] eqn:E3; [|discriminate]. cbn [obind] in E. inv_some E.
  split; [|reflexivity]. constructor; cbn; eauto using samples_length. discriminate.
Qed.
End Transcript.

(** ** The circuit *)
Definition width (ls : list player) : nat :=
  match ls with [] => O | l0 :: _ => Nat.max (fold_right Nat.max 0%nat (map (pl_ovars K) ls)) (pl_ivars K l0) end.

Lemma max_in (l : list nat) x : In x l -> (x <= fold_right Nat.max 0 l)%nat.
Proof. induction l as [|a l IH]; cbn; [easy|]. intros [->|H]; [lia|]. specialize (IH H). lia. Qed.

Lemma pad_new_ok ls lag : ls <> [] -> new_lagrange K = Some lag ->
  exists sp, vpad_new K simd_vars mpi_vars ls = Some sp /\ pad_ok K simd_vars mpi_vars (width ls) lag sp.
Proof.
  intros Hne El. destruct ls as [|l0 ls]; [easy|]. unfold vpad_new. cbn [aget nth_error obind].
  unfold new_with_num_vars. rewrite El. cbn [obind]. eexists. split; [reflexivity|].
  constructor; cbn [eq_evals_at_rz0 eq_evals_at_rx eq_evals_at_ry eq_evals_at_r_simd eq_evals_at_r_mpi eq_evals_first_part eq_evals_second_part sp_lagrange];
    auto; rewrite repeat_length; reflexivity.
Qed.

Lemma chained_tail a b (ls : list player) : chained (a :: b :: ls) -> chained (b :: ls).
Proof. intros H. apply H. Qed.

(** Reading the chain from the last layer. *)
Lemma fits_app M n ls l : fits M n ls -> pl_ovars K l = match rev ls with [] => n | x :: _ => pl_ivars K x end ->
  (pl_ovars K l <= M)%nat -> (pl_ivars K l <= M)%nat -> fits M n (ls ++ [l]).
Proof.
  revert n. induction ls as [|x ls IH]; intros n H E1 E2 E3; cbn [app fits].
  - cbn in E1. auto.
  - destruct H as (H1 & H2 & H3 & H4). split; auto. split; auto. split; auto. apply IH; auto.
    rewrite E1. cbn [rev]. destruct (rev ls) as [|y r] eqn:Er; cbn; auto.
Qed.

Lemma chained_ivars (ls : list player) M : chained ls -> (width ls <= M)%nat ->
  forall l, In l ls -> (pl_ovars K l <= M)%nat /\ (pl_ivars K l <= M)%nat.
Proof.
  destruct ls as [|l0 ls]; [easy|]. cbn [width]. intros C HM.
  assert (HO : forall l, In l (l0 :: ls) -> (pl_ovars K l <= M)%nat).
  { intros l Hl. apply (in_map (pl_ovars K)), max_in in Hl. lia. }
  assert (HI : (pl_ivars K l0 <= M)%nat) by lia. clear HM.
  revert l0 C HO HI. induction ls as [|b ls IH]; intros l0 C HO HI l [<-|Hl]; auto.
  - split; auto. apply HO. now left.
  - destruct Hl.
  - split; auto. apply HO. now left.
  - apply (IH b); auto.
    + now apply chained_tail with l0.
    + intros l' Hl'. apply HO. now right.
    + destruct C as (C & _). rewrite <- C. apply HO. now left.
Qed.

Lemma fits_circuit M (ls : list player) l0 : chained ls -> (forall l, In l ls -> (pl_ovars K l <= M)%nat /\ (pl_ivars K l <= M)%nat) ->
  fits M (pl_ovars K (last ls l0)) (rev ls).
Proof.
  induction ls as [|a ls IH]; intros C H; [exact I|]. cbn [rev].
  apply fits_app; [|rewrite rev_involutive|apply H; now left|apply H; now left].
  - destruct ls as [|b ls]; [exact I|]. cbn [last]. apply IH; [now apply chained_tail with a|]. intros l Hl. apply H. now right.
  - destruct ls as [|b ls]; cbn; [reflexivity|]. apply C.
Qed.

Lemma aget_last {A} (l : list A) a d : aget (a :: l) (length (a :: l) - 1) = Some (last (a :: l) d).
Proof.
  revert a. induction l as [|b l IH]; intros a; [reflexivity|].
  replace (length (a :: b :: l) - 1)%nat with (S (length (b :: l) - 1)) by (cbn; lia).
  cbn [aget nth_error]. unfold aget in IH. rewrite IH. reflexivity.
Qed.

Theorem gkr_verify_clean T append sample (layers : list player) pub v rd t :
  circuit_ok (npub pub) layers -> simd_ok simd_vars pub ->
  gkr_verify K simd_vars mpi_vars T append sample layers pub v rd t
  = clean_verify K simd_vars mpi_vars T append sample layers pub v rd t.
Proof.
  intros (Hne & Hch & HL) Hp. unfold gkr_verify, clean_verify.
  destruct (new_lagrange K) as [lag|] eqn:El.
  - destruct (pad_new_ok layers lag Hne El) as (sp & Esp & P). rewrite Esp. cbn [obind].
    destruct layers as [|l0 ls]; [easy|]. rewrite (aget_last ls l0 l0). cbn [obind].
    destruct (sample_from_transcript K simd_vars mpi_vars T sample (pl_ovars K (last (l0 :: ls) l0)) t) as [[ch t']|] eqn:Es; [|reflexivity].
    cbn [obind]. apply sample_ch_ok in Es. destruct Es as (C & N1).
    apply verify_layers_clean with (width (l0 :: ls)) (pl_ovars K (last (l0 :: ls) l0)); auto; try (now rewrite N1).
    + apply fits_circuit; auto. now apply chained_ivars.
    + intros l Hl. apply HL. now apply in_rev.
  - cbn [obind]. destruct layers as [|l0 ls]; [easy|]. unfold vpad_new. cbn [aget nth_error obind].
    unfold new_with_num_vars. now rewrite El.
Qed.

(** ** Interpolation *)
Record lag_ok (lag : lagrange K) : Prop := {
  lk3 : length (deg3_eval_at lag) = 4%nat; lk3i : length (deg3_lag_denoms_inv lag) = 4%nat;
  lk6 : length (deg6_eval_at lag) = 7%nat; lk6i : length (deg6_lag_denoms_inv lag) = 7%nat }.
Lemma omap_length {A B} (f : A -> option B) l r : omap f l = Some r -> length r = length l.
Proof.
  revert r. induction l as [|a l IH]; cbn [omap]; intros r E; [now inv_some E|].
  destruct (f a); [|discriminate]. cbn [obind] in E. destruct (omap f l) eqn:E'; [|discriminate]. cbn [obind] in E.
  inv_some E. cbn. f_equal. now apply IH.
Qed.
Lemma new_lagrange_ok lag : new_lagrange K = Some lag -> lag_ok lag.
Proof.
  unfold new_lagrange. intros E.
  destruct (lag_denoms_inv K (map f_of_nat (seq 0 4))) as [i3|] eqn:E3; [|discriminate]. cbn [obind] in E.
  destruct (lag_denoms_inv K (map f_of_nat (seq 0 7))) as [i6|] eqn:E6; [|discriminate]. cbn [obind] in E.
  apply omap_length in E3, E6. rewrite seq_length in *. inv_some E. constructor; auto.
Qed.
Lemma lag_eval_total lag vals x : lag_ok lag -> length vals = 4%nat -> exists y, lag_eval K lag vals x = Some y.
Proof.
  intros [H1 H2 _ _] L. unfold lag_eval. rewrite L. cbn [obind].
  destruct (deg3_eval_at lag) as [|e0 [|e1 [|e2 [|e3 [|]]]]]; try discriminate.
  destruct (deg3_lag_denoms_inv lag) as [|d0 [|d1 [|d2 [|d3 [|]]]]]; try discriminate.
  destruct vals as [|p0 [|p1 [|p2 [|p3 [|]]]]]; try discriminate.
  eexists. cbn. reflexivity.
Qed.

(** ** Reading the same elements from a split proof *)
Lemma deser_firstn m (rd : reader K) : try_deserialize_field K (firstn (S m) rd) =
  let '(v, ok, rd') := try_deserialize_field K rd in (v, ok, firstn m rd').
Proof. destruct rd as [|[v|] rd]; cbn; auto. now rewrite firstn_nil. Qed.
Lemma firstn_S_nil {A} n : firstn (A := A) n [] = [].
Proof. now destruct n. Qed.

Lemma firstn_add {A} a b (l : list A) : firstn a l ++ firstn b (skipn a l) = firstn (a + b) l.
Proof. revert l. induction a as [|a IH]; intros l; [reflexivity|]. destruct l; [cbn; now rewrite firstn_nil|]. cbn. now rewrite IH. Qed.

Section Split.
Variable T : Type.
Variable append : K -> T -> T.
Variable sample : T -> option (K * T).
Local Notation tape := (list K).
Local Notation tread := (read_message K tape (tape_append K)).
Local Notation trounds := (Gkr.verify_rounds K tape (tape_append K) (tape_sample K)).
Local Notation tlayer := (GkrClean.clean_layer K simd_vars mpi_vars tape (tape_append K) (tape_sample K)).

Lemma parse_field rd t : let '(v, ok, rd') := try_deserialize_field K rd in
  parse_challenge_field K T append rd t = (v, firstn 1 rd, ok, rd', append v t) /\ rd' = skipn 1 rd.
Proof. destruct rd as [|[v|] rd]; cbn; auto. Qed.

Lemma read_split n : forall rd t, let '(ps, ok, rd', t') := read_message K T append n rd t in
  rd' = skipn n rd /\ length ps = n /\
  parse_fields K T append n rd t = (firstn n rd, ok, rd', t') /\
  forall m (u : tape), tread n (firstn (n + m) rd) u = (ps, ok, firstn m rd', u).
Proof.
  induction n as [|n IH]; intros rd t; cbn [read_message parse_fields]; [auto|].
  assert (H := parse_field rd t). assert (D := fun m => deser_firstn m rd).
  destruct (try_deserialize_field K rd) as [[v ok] rd1]. destruct H as (E & E1). rewrite E.
  specialize (IH rd1 (append v t)). destruct (read_message K T append n rd1 (append v t)) as [[[ps ok'] rd2] t2].
  destruct IH as (H1 & H2 & H3 & H4). rewrite H3.
  split; [|split; [|split]].
  - rewrite H1, E1. destruct rd; cbn; [now rewrite skipn_nil|reflexivity].
  - cbn. now rewrite H2.
  - f_equal. f_equal. f_equal. rewrite E1. destruct rd; cbn; [now rewrite firstn_nil|reflexivity].
  - intros m u. cbn [Nat.add]. rewrite D. change (tape_append K v u) with u. now rewrite (H4 m u).
Qed.

Definition step_val (lag : lagrange K) (d : nat) (ps : list K) (ok : bool) (s r : K) : option (bool * K) :=
  let* p0 := aget ps 0 in let* p1 := aget ps 1 in
    let verified := ok && feqb (p0 + p1) s in
    if (d =? 2)%nat then let* s := degree_2_eval K ps r in Some (verified, s)
    else if (d =? 3)%nat then let* s := lag_eval K lag ps r in Some (verified, s)
    else if (d =? 6)%nat then let* s := lag_eval K lag ps r in Some (verified, s)
    else Some (false, s).
Lemma step_total lag d ps s : lag_ok lag -> (d = 2 \/ d = 3)%nat -> length ps = (d + 1)%nat -> forall r ok,
  exists v s', step_val lag d ps ok s r = Some (v, s') /\ (v = true -> ok = true).
Proof.
  intros HL [->| ->] L r ok; unfold step_val.
  - destruct ps as [|p0 [|p1 [|p2 [|]]]]; try discriminate. cbn. do 2 eexists. split; [reflexivity|]. now destruct ok.
  - destruct (lag_eval_total lag ps r HL L) as (y & Ey).
    destruct ps as [|p0 [|p1 [|p2 [|p3 [|]]]]]; try discriminate. cbn [aget nth_error obind Nat.eqb]. rewrite Ey. cbn [obind].
    do 2 eexists. split; [reflexivity|]. now destruct ok.
Qed.

Lemma step_eq (T' : Type) ap sa lag d s rd (t : T') : verify_sumcheck_step K T' ap sa lag d s rd t =
  let '(ps, ok, rd, t) := read_message K T' ap (d + 1) rd t in
  let* (r, t) := sa t in
  let* (v, s') := step_val lag d ps ok s r in Some (v, s', r, rd, t).
Proof.
  unfold verify_sumcheck_step, step_val. destruct (read_message K T' ap (d + 1) rd t) as [[[ps ok] rd1] t1].
  destruct (sa t1) as [[r t2]|]; [|reflexivity]. cbn [obind].
  destruct (aget ps 0); [|reflexivity]. cbn [obind]. destruct (aget ps 1); [|reflexivity]. cbn [obind].
  destruct (d =? 2)%nat; [destruct (degree_2_eval K ps r); reflexivity|].
  destruct (d =? 3)%nat; [destruct (lag_eval K lag ps r); reflexivity|].
  destruct (d =? 6)%nat; [destruct (lag_eval K lag ps r); reflexivity|]. reflexivity.
Qed.

Lemma rounds_split lag d : lag_ok lag -> (d = 2 \/ d = 3)%nat -> forall n b s rs rd t,
  match Gkr.verify_rounds K T append sample lag n d b s rs rd t with
  | None => parse_sumcheck_rounds K T append sample n d rd t = None
  | Some (b', s', rs', rd', t') => exists cs ok, rs' = rs ++ cs /\ rd' = skipn (n * (d + 1)) rd /\
      parse_sumcheck_rounds K T append sample n d rd t = Some (cs, firstn (n * (d + 1)) rd, ok, rd', t') /\
      (b' = true -> b = true /\ ok = true) /\
      forall m rest, trounds lag n d b s rs (firstn (n * (d + 1) + m) rd) (cs ++ rest) = Some (b', s', rs', firstn m rd', rest)
  end.
Proof.
  intros HL Hd. induction n as [|n IH]; intros b s rs rd t; cbn [Gkr.verify_rounds parse_sumcheck_rounds].
  - exists [], true. rewrite app_nil_r. cbn. repeat split; auto.
  - rewrite step_eq. assert (R := read_split (d + 1) rd t).
    destruct (read_message K T append (d + 1) rd t) as [[[ps ok] rd1] t1]. destruct R as (R1 & R2 & R3 & R4). rewrite R3.
    destruct (sample t1) as [[r t2]|]; [|reflexivity]. cbn [obind].
    destruct (step_total lag d ps s HL Hd R2 r ok) as (v & s' & Ev & Hv). rewrite Ev. cbn [obind].
    specialize (IH (b && v) s' (rs ++ [r]) rd1 t2).
    destruct (Gkr.verify_rounds K T append sample lag n d (b && v) s' (rs ++ [r]) rd1 t2) as [[[[[b' s''] rs'] rd'] t']|].
    2:{ now rewrite IH. }
    destruct IH as (cs & ok' & H1 & H2 & H3 & H4 & H5). rewrite H3. cbn [obind].
    exists (r :: cs), (ok && ok'). split; [rewrite H1, <- app_assoc; reflexivity|].
    assert (Esk : skipn (S n * (d + 1)) rd = skipn (n * (d + 1)) rd1).
    { rewrite R1. cbn [Nat.mul]. clear. generalize (d + 1)%nat as a, (n * (d + 1))%nat as b. intros a b. revert rd.
      induction a as [|a IH]; intros rd; cbn [Nat.add]; [reflexivity|]. destruct rd; [now rewrite !skipn_nil|]. cbn [skipn]. apply IH. }
    assert (Efi : forall m, firstn (S n * (d + 1) + m) rd = firstn (d + 1 + (n * (d + 1) + m)) rd).
    { intros m. f_equal. cbn. lia. }
    split; [now rewrite Esk|]. split; [|split].
    + replace (S n * (d + 1))%nat with (d + 1 + n * (d + 1))%nat by (cbn; lia).
      rewrite <- (firstn_add (d + 1) (n * (d + 1)) rd), <- R1. reflexivity.
    + intros Hb. destruct (H4 Hb) as (Hb1 & Hb2). apply andb_true_iff in Hb1. destruct Hb1 as (Hb1 & Hb3). rewrite (Hv Hb3). auto.
    + intros m rest. rewrite step_eq, Efi, R4. cbn [app tape_sample obind]. rewrite Ev. cbn [obind]. apply H5.
Qed.

Definition msg_len (l : player) : nat :=
  (pl_ivars K l * 3 + (simd_vars * 4 + (mpi_vars * 4 + (1 + if empty (pl_mul K l) then 0 else pl_ivars K l * 3 + 1))))%nat.


Lemma layer_split lag l pub ch v0 v1 alpha rd t : lag_ok lag ->
  match (let* (b, ch', v0', v1', rd', t') := GkrClean.clean_layer K simd_vars mpi_vars T append sample lag l pub ch v0 v1 alpha rd t in
         let* (a', t') := sample_alpha K T sample ch' t' in Some (b, ch', v0', v1', a', rd', t')) with
  | None => parse_layer K simd_vars mpi_vars T append sample l 2 ch v0 alpha v1 rd t = None
  | Some (b, ch', v0', v1', a', rd', t') => exists u ok rd2 t2,
      parse_layer K simd_vars mpi_vars T append sample l 2 ch v0 alpha v1 rd t = Some (u, ch', v0', v1', a', ok, rd', t') /\
      (b = true -> ok = true) /\
      u_challenge K u = ch /\ u_claim_x K u = v0 /\ u_claim_y K u = v1 /\ u_alpha K u = alpha /\
      tlayer lag l pub ch v0 v1 alpha (u_proof K u) (u_tape K u) = Some (b, ch', v0', v1', rd2, t2)
  end.
Proof.
  intros HL. unfold GkrClean.clean_layer, parse_layer. cbv zeta.
  set (s0 := _ - clean_cst K simd_vars mpi_vars (pl_const K l) pub ch alpha).
  assert (H1 := rounds_split lag 2 HL (or_introl eq_refl) (pl_ivars K l) true s0 [] rd t). cbn [Nat.add] in H1.
  destruct (Gkr.verify_rounds K T append sample lag (pl_ivars K l) 2 true s0 [] rd t) as [[[[[b1 s1] rx] rd1] t1]|].
  2:{ rewrite H1. reflexivity. }
  destruct H1 as (rx' & ok1 & -> & R1 & P1 & B1 & U1). cbn [app] in *. rewrite P1. cbn [obind].
  assert (H2 := rounds_split lag 3 HL (or_intror eq_refl) simd_vars b1 s1 [] rd1 t1). cbn [Nat.add] in H2.
  destruct (Gkr.verify_rounds K T append sample lag simd_vars 3 b1 s1 [] rd1 t1) as [[[[[b2 s2] rs] rd2] t2]|].
  2:{ rewrite H2. reflexivity. }
  destruct H2 as (rs' & ok2 & -> & R2 & P2 & B2 & U2). cbn [app] in *. rewrite P2. cbn [obind].
  assert (H3 := rounds_split lag 3 HL (or_intror eq_refl) mpi_vars b2 s2 [] rd2 t2). cbn [Nat.add] in H3.
  destruct (Gkr.verify_rounds K T append sample lag mpi_vars 3 b2 s2 [] rd2 t2) as [[[[[b3 s3] rm] rd3] t3]|].
  2:{ rewrite H3. reflexivity. }
  destruct H3 as (rm' & ok3 & -> & R3 & P3 & B3 & U3). cbn [app] in *. rewrite P3. cbn [obind].
  assert (H4 := parse_field rd3 t3). assert (D4 := fun m => deser_firstn m rd3).
  destruct (try_deserialize_field K rd3) as [[vx okx] rd4]. destruct H4 as (E4 & R4). rewrite E4.
  destruct (negb (empty (pl_mul K l))) eqn:Em.
  - match goal with |- context [Gkr.verify_rounds K T append sample lag (pl_ivars K l) 2 ?b ?s [] rd4 ?t] =>
      set (b5 := b); set (s5 := s);
      assert (H5 := rounds_split lag 2 HL (or_introl eq_refl) (pl_ivars K l) b5 s5 [] rd4 t); cbn [Nat.add] in H5;
      destruct (Gkr.verify_rounds K T append sample lag (pl_ivars K l) 2 b5 s5 [] rd4 t) as [[[[[b6 s6] ry] rd5] t5]|] end.
    2:{ rewrite H5. reflexivity. }
    destruct H5 as (ry' & ok5 & -> & R5 & P5 & B5 & U5). cbn [app] in *. rewrite P5. cbn [obind].
    assert (H6 := parse_field rd5 t5). assert (D6 := fun m => deser_firstn m rd5).
    destruct (try_deserialize_field K rd5) as [[vy oky] rd6]. destruct H6 as (E6 & R6). rewrite E6. cbn [obind sample_alpha rz_1].
    destruct (sample (append vy t5)) as [[a t6]|]; [|reflexivity]. cbn [obind].
    do 4 eexists. split; [reflexivity|]. split.
    { intros Hb. rewrite !andb_true_iff in Hb. destruct Hb as ((Hb & Hy) & _). destruct (B5 Hb) as (Hb5 & ->). unfold b5 in Hb5.
      rewrite andb_true_iff in Hb5. destruct Hb5 as (Hb5 & Hx). destruct (B3 Hb5) as (Hb3 & ->). destruct (B2 Hb3) as (Hb2 & ->).
      destruct (B1 Hb2) as (_ & ->). rewrite Hx, Hy. reflexivity. }
    cbn [u_challenge u_claim_x u_claim_y u_alpha u_proof u_tape]. do 4 (split; [reflexivity|]).
    assert (Eu : firstn (pl_ivars K l * 3) rd ++ firstn (simd_vars * 4) rd1 ++ firstn (mpi_vars * 4) rd2 ++ firstn 1 rd3 ++ firstn (pl_ivars K l * 3) rd4 ++ firstn 1 rd5
      = firstn (pl_ivars K l * 3 + (simd_vars * 4 + (mpi_vars * 4 + (1 + (pl_ivars K l * 3 + 1))))) rd).
    { rewrite R6 || idtac. rewrite <- !firstn_add, <- R1, <- R2, <- R3, <- R4, <- R5. reflexivity. }
    rewrite Eu. rewrite U1. cbn [obind]. rewrite U2. cbn [obind]. rewrite U3. cbn [obind].
    cbn [Nat.add]. rewrite D4. cbn [obind]. fold b5 s5. match goal with |- context [tape_append K ?x ?y] => change (tape_append K x y) with y end. rewrite U5. cbn [obind]. rewrite D6. reflexivity.
  - cbn [obind sample_alpha rz_1].
    do 4 eexists. split; [reflexivity|]. split.
    { intros Hb. rewrite !andb_true_iff in Hb. destruct Hb as ((Hb5 & Hx) & _). destruct (B3 Hb5) as (Hb3 & ->). destruct (B2 Hb3) as (Hb2 & ->).
      destruct (B1 Hb2) as (_ & ->). rewrite Hx. reflexivity. }
    cbn [u_challenge u_claim_x u_claim_y u_alpha u_proof u_tape]. do 4 (split; [reflexivity|]).
    assert (Eu : firstn (pl_ivars K l * 3) rd ++ firstn (simd_vars * 4) rd1 ++ firstn (mpi_vars * 4) rd2 ++ firstn 1 rd3
      = firstn (pl_ivars K l * 3 + (simd_vars * 4 + (mpi_vars * 4 + 1))) rd).
    { rewrite <- !firstn_add, <- R1, <- R2, <- R3. reflexivity. }
    rewrite Eu. rewrite U1. cbn [obind]. rewrite U2. cbn [obind].
    rewrite <- (app_nil_r rm'). rewrite U3. cbn [obind]. rewrite app_nil_r. rewrite D4. reflexivity.
Qed.

(** The units of a proof, each checked on its own with a fresh scratch pad. *)
Definition check_unit (pub : list (list K)) (sp : vpad K) (ul : unit_ K * player) : option bool :=
  let (u, l) := ul in
  let* (v, _, _, _, _, _, _) :=
    Gkr.verify_layer K simd_vars mpi_vars (list K) (tape_append K) (tape_sample K) l pub (u_challenge K u) (u_claim_x K u) (u_claim_y K u) (u_alpha K u)
      false true (u_proof K u) (u_tape K u) sp in Some v.

Lemma layers_split M lag pub sp : lag_ok lag -> simd_ok simd_vars pub -> pad_ok K simd_vars mpi_vars M lag sp ->
  forall ls n ch v0 v1 alpha rd t b, fits M n ls -> (forall l, In l ls -> layer_ok (npub pub) l) ->
  ch_ok n ch -> same_none (rz_1 ch) v1 = true -> same_none (rz_1 ch) alpha = true ->
  match clean_layers K simd_vars mpi_vars T append sample lag ls pub b ch v0 v1 alpha rd t with
  | None => parse_layers K simd_vars mpi_vars T append sample ls 2 ch v0 alpha v1 rd t = None
  | Some (b', ch', v0', v1', rd', t') => exists us ok vs,
      parse_layers K simd_vars mpi_vars T append sample ls 2 ch v0 alpha v1 rd t = Some (us, ch', v0', v1', ok, rd', t') /\
      omap (check_unit pub sp) (combine us ls) = Some vs /\ b' = b && (forallb (fun v => v) vs && ok)
  end.
Proof.
  intros HL Hp P. induction ls as [|l ls IH]; intros n ch v0 v1 alpha rd t b HF HLs C S1 S2; cbn [clean_layers parse_layers].
  - exists [], true, []. split; [reflexivity|]. split; [reflexivity|]. cbn. now rewrite andb_true_r.
  - destruct HF as (En & HMo & HMi & HF). rewrite <- En in C.
    assert (H := layer_split lag l pub ch v0 v1 alpha rd t HL).
    destruct (GkrClean.clean_layer K simd_vars mpi_vars T append sample lag l pub ch v0 v1 alpha rd t) as [[[[[[b1 ch1] w0] w1] rd1] t1]|] eqn:Ec.
    2:{ cbn [obind] in H |- *. rewrite H. reflexivity. }
    cbn [obind] in H |- *. apply clean_layer_ch in Ec. destruct Ec as (C1 & S').
    destruct (sample_alpha K T sample ch1 t1) as [[a1 t1']|] eqn:Ea; cbn [obind] in H |- *; [|rewrite H; reflexivity].
    destruct H as (u & ok & rd2 & t2 & E & Hok & E1 & E2 & E3 & E4 & E5). rewrite E. cbn [obind].
    specialize (IH (pl_ivars K l) ch1 w0 w1 a1 rd1 t1' (b && b1) HF (fun l H => HLs l (or_intror H)) C1 S' (alpha_same _ _ _ _ _ _ Ea)).
    destruct (clean_layers K simd_vars mpi_vars T append sample lag ls pub (b && b1) ch1 w0 w1 a1 rd1 t1') as [[[[[[b' ch'] v0'] v1'] rd'] t']|];
      [|rewrite IH; reflexivity].
    destruct IH as (us & ok' & vs & F1 & F2 & F3). rewrite F1. cbn [obind].
    exists (u :: us), (ok && ok'), (b1 :: vs). split; [reflexivity|]. cbn [combine omap].
    assert (V := verify_layer_clean (list K) (tape_append K) (tape_sample K) M lag l pub ch v0 v1 alpha false true (u_proof K u) (u_tape K u) sp P C HMo HMi
      (HLs l (or_introl eq_refl)) Hp S1 S2 I).
    rewrite E5 in V. destruct V as (sp' & V & _). unfold check_unit at 1. rewrite E1, E2, E3, E4, V. cbn [obind]. rewrite F2. cbn [obind].
    split; [reflexivity|]. cbn [forallb]. rewrite F3. destruct b1; [rewrite (Hok eq_refl), andb_true_r; cbn; now destruct b|].
    rewrite andb_false_r. cbn. now rewrite andb_false_r.
Qed.

Theorem parallel_eq layers pub v rd t : circuit_ok (npub pub) layers -> simd_ok simd_vars pub ->
  gkr_parallel K simd_vars mpi_vars T append sample layers pub v rd t
  = gkr_verify K simd_vars mpi_vars T append sample layers pub v rd t.
Proof.
  intros HC Hp. rewrite gkr_verify_clean by auto. destruct HC as (Hne & Hch & HL). unfold gkr_parallel, parse_proof, clean_verify.
  destruct layers as [|l0 ls0]; [easy|]. rewrite (aget_last ls0 l0 l0). cbn [obind].
  set (ls := l0 :: ls0) in *. set (la := last ls l0).
  assert (Er : exists r, rev ls = la :: r).
  { assert (E := app_removelast_last l0 Hne). exists (rev (removelast ls)). rewrite E at 1. now rewrite rev_app_distr. }
  destruct Er as (r & Er).
  assert (HF : fits (width ls) (pl_ovars K la) (rev ls)) by (apply fits_circuit; auto; now apply chained_ivars).
  destruct (new_lagrange K) as [lag|] eqn:El.
  - destruct (pad_new_ok ls lag Hne El) as (sp & Esp & P). rewrite Er at 1. cbn [obind].
    destruct (sample_from_transcript K simd_vars mpi_vars T sample (pl_ovars K la) t) as [[ch t']|] eqn:Es; [|reflexivity].
    cbn [obind]. apply sample_ch_ok in Es. destruct Es as (C & N1).
    assert (H := layers_split (width ls) lag pub sp (new_lagrange_ok lag El) Hp P (rev ls) (pl_ovars K la) ch v None None rd (append v t') true
      HF (fun l H => HL l (proj2 (in_rev _ _) H)) C ltac:(now rewrite N1) ltac:(now rewrite N1)).
    destruct (clean_layers K simd_vars mpi_vars T append sample lag (rev ls) pub true ch v None None rd (append v t')) as [[[[[[b' ch'] v0'] v1'] rd'] t'']|];
      [|rewrite H; reflexivity].
    destruct H as (us & ok & vs & E1 & E2 & ->). rewrite E1. cbn [obind]. rewrite Esp. cbn [obind].
    unfold check_unit in E2. rewrite E2. cbn [obind andb]. reflexivity.
  - rewrite Er at 1. cbn [obind].
    assert (En : vpad_new K simd_vars mpi_vars ls = None).
    { unfold ls, vpad_new. cbn [aget nth_error obind]. unfold new_with_num_vars. now rewrite El. }
    destruct (sample_from_transcript K simd_vars mpi_vars T sample (pl_ovars K la) t) as [[ch t']|]; [|reflexivity]. cbn [obind].
    destruct (parse_layers K simd_vars mpi_vars T append sample (rev ls) 2 ch v None None rd (append v t')) as [[[[[[[us c] x] y] o] d] e]|]; [|reflexivity].
    cbn [obind]. now rewrite En.
Qed.
End Split.
End Proofs.
