(** Soundness of the GKR protocol: few challenges let a false claim through. *)
From Coq Require Import List Bool Arith Lia Ring Field.
From Verif Require Import Base.Field Base.Array Base.Poly Spec.Multilinear Spec.Sumcheck Spec.Gkr Model.Polynomials Model.Layered Model.Gkr
  Proofs.Multilinear Proofs.Polynomials Proofs.Sumcheck Proofs.GkrClean Proofs.GkrVerify Proofs.GkrAlg Proofs.GkrLayer.
Import ListNotations.

(** ** Counting *)
Section Count.
Variable A : Type.
Variable S : list A.
Definition few (N d : nat) (acc : list A -> bool) : Prop := length (filter acc (vectors N S)) * length S <= d * length S ^ N.

Lemma few_none N d acc : (forall r, length r = N -> acc r = false) -> few N d acc.
Proof.
  intros H. unfold few. assert (E : filter acc (vectors N S) = []); [|rewrite E; cbn; lia].
  assert (G : forall r, In r (vectors N S) -> acc r = false) by (intros r Hr; apply H; now apply vectors_in in Hr).
  clear H. induction (vectors N S) as [|a l IH]; cbn; auto. rewrite (G a (or_introl eq_refl)). apply IH. intros r Hr. apply G. now right.
Qed.
Lemma few_weaken N d d' acc : few N d acc -> d <= d' -> few N d' acc.
Proof. unfold few. intros H L. eapply Nat.le_trans; [exact H|]. now apply Nat.mul_le_mono_r. Qed.
Lemma few_ext N d acc acc' : (forall r, length r = N -> acc r = acc' r) -> few N d acc -> few N d acc'.
Proof.
  intros H. unfold few. rewrite (filter_ext_in acc acc'); auto. intros r Hr. apply H. now apply vectors_in in Hr.
Qed.
Lemma few_step N d d1 acc bad : length (filter bad S) <= d1 ->
  (forall a, In a S -> bad a = false -> few N d (fun r => acc (a :: r))) -> few (Datatypes.S N) (d1 + d) acc.
Proof.
  intros Hb H. unfold few in *. cbn [vectors]. rewrite Nat.pow_succ_r'. set (s := length S) in *. set (p := s ^ N) in *.
  assert (G : forall l, incl l S -> length (filter acc (flat_map (fun a => map (cons a) (vectors N S)) l)) * s
      <= length (filter bad l) * p * s + length l * (d * p)).
  { induction l as [|a l IHl]; intros Hi; cbn [flat_map]; [cbn; lia|].
    rewrite filter_app, app_length, filter_map_length. specialize (IHl (fun x Hx => Hi x (or_intror Hx))).
    cbn [filter length]. destruct (bad a) eqn:Eb; cbn [length].
    - pose proof (filter_le (fun v => acc (a :: v)) (vectors N S)) as HF. rewrite vectors_length in HF. fold s p in HF. apply (Nat.mul_le_mono_r _ _ s) in HF. lia.
    - specialize (H a (Hi a (or_introl eq_refl)) Eb). lia. }
  specialize (G S (incl_refl S)). fold s in G. apply (Nat.mul_le_mono_r _ _ (p * s)) in Hb. lia.
Qed.
Lemma few_any N d acc : (forall a, In a S -> few N d (fun r => acc (a :: r))) -> few (Datatypes.S N) d acc.
Proof. intros H. apply (few_step N d 0 acc (fun _ => false)); [|auto].
  assert (E : forall l : list A, filter (fun _ => false) l = []) by (induction l; auto). now rewrite E. Qed.
End Count.

Section Proofs.
Variable K : field.
Add Field Kf : (fth K).
Local Open Scope fld_scope.
Variables simd_vars mpi_vars : nat.
Local Notation player := (player K).
Local Notation ch_ok := (ch_ok K simd_vars mpi_vars).
Local Notation npub pub := (length pub / 2 ^ mpi_vars)%nat.
Local Notation verify_rounds := (verify_rounds K (list K) (tape_append K) (tape_sample K)).
Local Notation clean_layer := (clean_layer K simd_vars mpi_vars (list K) (tape_append K) (tape_sample K)).
Local Notation clean_layers := (clean_layers K simd_vars mpi_vars (list K) (tape_append K) (tape_sample K)).
Variable S : list K.
Hypothesis HS : NoDup S.
Local Notation few := (few K S).

Lemma few_agree (q h : K -> K) d x0 : polyfn d q -> polyfn d h -> q x0 <> h x0 -> (length (filter (fun a => feqb (q a) (h a)) S) <= d)%nat.
Proof.
  intros Hq Hh Hx. apply (polyfn_agree K d q h x0); auto; [now apply NoDup_filter|].
  intros r Hr. apply filter_In in Hr as (_ & Hr). now apply feqb_eq.
Qed.

Variable prover : nat -> list K -> option K.
Local Notation play := (play prover).

Lemma play_reads n : forall es j seen, exists l, length l = n /\ forall r, play (repeat Read n ++ es) j seen r = l ++ play es (j + n) seen r.
Proof.
  induction n as [|n IH]; intros es j seen.
  - exists []. split; auto. intros r. now rewrite Nat.add_0_r.
  - destruct (IH es (Datatypes.S j) seen) as (l & L & E). exists (prover j seen :: l). split; [cbn; lia|].
    intros r. cbn [repeat app Gkr.play]. rewrite E. do 3 f_equal. lia.
Qed.
Lemma read_known n : forall l, length l = n -> exists ps ok, length ps = n /\ forall rest t,
  read_message K (list K) (tape_append K) n (l ++ rest) t = (ps, ok, rest, t).
Proof.
  induction n as [|n IH]; intros l L.
  - destruct l; [|discriminate]. exists [], true. split; auto.
  - destruct l as [|x l]; [discriminate|]. injection L as L. destruct (IH l L) as (ps & ok & Lp & E).
    destruct x as [v|].
    + exists (v :: ps), (true && ok). split; [cbn; lia|]. intros rest t. cbn [read_message app try_deserialize_field].
      change (tape_append K v t) with t. now rewrite E.
    + exists (0 :: ps), (false && ok). split; [cbn; lia|]. intros rest t. cbn [read_message app try_deserialize_field].
      change (tape_append K 0 t) with t. now rewrite E.
Qed.

(** ** Rounds *)
Section Rounds.
Variable R : Type.
Variable Acc : option R -> bool.
Hypothesis HNone : Acc None = false.
Local Notation kont := (bool * K * list K * reader K * list K -> option R).
Definition rej (k : kont) : Prop := forall s rs rd t, Acc (k (false, s, rs, rd, t)) = false.
Lemma rounds_rej lag d (k : kont) n : rej k -> forall s rs rd t, Acc (obind (verify_rounds lag n d false s rs rd t) k) = false.
Proof.
  intros Hk. induction n as [|n IH]; intros s rs rd t; cbn [Gkr.verify_rounds obind]; [apply Hk|].
  destruct (verify_sumcheck_step K (list K) (tape_append K) (tape_sample K) lag d s rd t) as [[[[[v s'] r] rd'] t']|]; cbn [obind]; auto.
Qed.

Lemma rounds_any lag d es N D (k : kont) : forall n b s rs j seen,
  (forall b' s' rs' j' seen', length rs' = n -> few N D (fun r => Acc (k (b', s', rs ++ rs', play es j' seen' r, r)))) ->
  few (n + N) D (fun r => Acc (obind (verify_rounds lag n d b s rs (play (rounds_script n d ++ es) j seen r) r) k)).
Proof.
  induction n as [|n IH]; intros b s rs j seen H.
  - cbn [Gkr.verify_rounds obind rounds_script repeat concat app Nat.add].
    specialize (H b s [] j seen eq_refl). now rewrite app_nil_r in H.
  - cbn [Nat.add]. apply few_any. intros a Ha.
    unfold rounds_script. cbn [repeat concat]. fold (rounds_script n d). rewrite <- !app_assoc.
    destruct (play_reads (d + 1) ([Draw] ++ rounds_script n d ++ es) j seen) as (l & L & E).
    destruct (read_known _ l L) as (ps & ok & Lp & E').
    cbn [Gkr.verify_rounds].
    destruct (step_val K lag d ps ok s a) as [[v s']|] eqn:Es.
    + apply few_ext with (fun r => Acc (obind (verify_rounds lag n d (b && v) s' (rs ++ [a]) (play (rounds_script n d ++ es) (j + (d + 1)) (seen ++ [a]) r) r) k)).
      { intros r _. rewrite step_eq, E. cbn [app Gkr.play]. rewrite E'. cbn [tape_sample obind]. now rewrite Es. }
      apply IH. intros b' s'' rs' j' seen' L'. specialize (H b' s'' (a :: rs') j' seen' ltac:(cbn; lia)).
      now rewrite <- app_assoc.
    + apply few_none. intros r _. rewrite step_eq, E. cbn [app Gkr.play]. rewrite E'. cbn [tape_sample obind]. now rewrite Es.
Qed.

(** Degree at most d in every variable, read for n variables only. *)
Definition deg (d n : nat) (P : list K -> K) : Prop := forall pre post, Datatypes.S (length (pre ++ post)) = n -> polyfn d (fun x => P (pre ++ x :: post)).
Lemma deg_of d n P : individual_degree d n P -> deg d n P.
Proof. intros H pre post L. apply H. lia. Qed.
Lemma deg_head d n P : deg d (Datatypes.S n) P -> polyfn d (fun x => cube_sum n (fun y => P (x :: y))).
Proof. intros H. apply cube_sum_poly. intros y Hy. apply (H [] y). cbn. lia. Qed.

Lemma rounds_sound lag d es N D (k : kont) : new_lagrange K = Some lag -> (d = 2 \/ d = 3)%nat -> rej k ->
  forall n P b s rs j seen, deg d n P -> s <> cube_sum n P ->
  (forall b' s' rs' j' seen', length rs' = n -> s' <> P rs' -> few N D (fun r => Acc (k (b', s', rs ++ rs', play es j' seen' r, r)))) ->
  few (n + N) (d * n + D) (fun r => Acc (obind (verify_rounds lag n d b s rs (play (rounds_script n d ++ es) j seen r) r) k)).
Proof.
  intros El Hd Hk. induction n as [|n IH]; intros P b s rs j seen HP Hs H.
  - cbn [Gkr.verify_rounds obind rounds_script repeat concat app Nat.add cube_sum] in *. rewrite Nat.mul_0_r. cbn [Nat.add].
    specialize (H b s [] j seen eq_refl Hs). now rewrite app_nil_r in H.
  - cbn [Nat.add].
    unfold rounds_script. cbn [repeat concat]. fold (rounds_script n d). rewrite <- !app_assoc.
    destruct (play_reads (d + 1) ([Draw] ++ rounds_script n d ++ es) j seen) as (l & L & E).
    destruct (read_known _ l L) as (ps & ok & Lp & E').
    destruct (step_interp K lag d ps El Hd Lp) as (q & Hq & _ & Es).
    set (h := fun x => cube_sum n (fun y => P (x :: y))).
    assert (Hh : polyfn d h) by now apply deg_head.
    apply few_ext with (fun r => match r with [] => false | a :: r =>
      Acc (obind (verify_rounds lag n d (b && (ok && feqb (q 0 + q 1) s)) (q a) (rs ++ [a]) (play (rounds_script n d ++ es) (j + (d + 1)) (seen ++ [a]) r) r) k) end).
    { intros [|a r] Lr; [discriminate|]. cbn [Gkr.verify_rounds]. rewrite step_eq, E. cbn [app Gkr.play]. rewrite E'. cbn [tape_sample obind]. rewrite Es. reflexivity. }
    destruct (ok && feqb (q 0 + q 1) s) eqn:Ev.
    2:{ apply few_none. intros [|a r] _; auto. rewrite andb_false_r. now apply rounds_rej. }
    apply andb_prop in Ev as (_ & Ev). apply feqb_eq in Ev.
    assert (Hx : exists x0, q x0 <> h x0).
    { destruct (feq_dec (q 0) (h 0)) as [E0|]; [|eauto]. destruct (feq_dec (q 1) (h 1)) as [E1|]; [|eauto].
      exfalso. apply Hs. rewrite <- Ev, E0, E1. reflexivity. }
    destruct Hx as (x0 & Hx).
    apply few_weaken with (d + (d * n + D))%nat; [|lia].
    apply few_step with (bad := fun a => feqb (q a) (h a)); [now apply few_agree with x0|].
    intros a Ha Hbad. apply IH with (P := fun y => P (a :: y)).
    + intros pre post Lpp. apply (HP (a :: pre) post). cbn. now rewrite Lpp.
    + intros Eq. assert (F : feqb (q a) (h a) = true) by now apply feqb_eq. congruence.
    + intros b' s' rs' j' seen' L' Hs'. specialize (H b' s' (a :: rs') j' seen' ltac:(cbn; lia) Hs'). now rewrite <- app_assoc.
Qed.
End Rounds.

(** ** Layers *)
Variable pub : list (list K).
Variable inp : nat -> nat -> list K.
Hypothesis Hpub : simd_ok simd_vars pub.

Local Notation claims_ok := (claims_hold inp).
Definition accepts (o : option (bool * dual_challenge K * K * option K * reader K * list K)) : bool :=
  match o with Some (true, ch, v0, v1, _, _) => claims_ok ch v0 v1 | _ => false end.

Lemma layers_rej lag ls : forall ch v0 v1 alpha rd t, accepts (clean_layers lag ls pub false ch v0 v1 alpha rd t) = false.
Proof.
  induction ls as [|l ls IH]; intros ch v0 v1 alpha rd t; cbn [GkrClean.clean_layers]; [reflexivity|].
  destruct (clean_layer lag l pub ch v0 v1 alpha rd t) as [[[[[[cur ch'] v0'] v1'] rd'] t']|]; [|reflexivity]. cbn [obind].
  destruct (sample_alpha K (list K) (tape_sample K) ch' t') as [[a t'']|]; [|reflexivity]. cbn [obind]. apply IH.
Qed.

(** The layers, last to first, turn the inputs into [outs]. *)
Fixpoint computes (rev_layers : list player) (outs : nat -> nat -> list K) : Prop :=
  match rev_layers with
  | [] => forall k j, (k < 2 ^ mpi_vars)%nat -> (j < 2 ^ simd_vars)%nat -> outs k j = inp k j
  | l :: rest => exists vals, computes rest vals /\
      forall k j, (k < 2 ^ mpi_vars)%nat -> (j < 2 ^ simd_vars)%nat -> eval_layer K l (vals k j) (lane_pub mpi_vars pub k j) = Some (outs k j)
  end.

Definition claimed (v0 : K) (v1 alpha : option K) : K := match v1, alpha with Some v1, Some a => v0 + v1 * a | _, _ => v0 end.

Lemma draws_app a b : draws (a ++ b) = (draws a + draws b)%nat.
Proof. unfold draws. now rewrite filter_app, app_length. Qed.
Lemma draws_rounds n d : draws (rounds_script n d) = n.
Proof.
  unfold rounds_script. induction n as [|n IH]; cbn [repeat concat]; auto. rewrite !draws_app, IH.
  assert (E : forall k, draws (repeat Read k) = O) by (induction k; auto). now rewrite E.
Qed.
Lemma rounds_script_app n m d : rounds_script (n + m) d = rounds_script n d ++ rounds_script m d.
Proof. unfold rounds_script. now rewrite repeat_app, concat_app. Qed.
Lemma vmle_ext (V W : values K) rx rs rm : length rs = simd_vars -> length rm = mpi_vars ->
  (forall k j, (k < 2 ^ mpi_vars)%nat -> (j < 2 ^ simd_vars)%nat -> V k j = W k j) -> vmle V rx rs rm = vmle W rx rs rm.
Proof. intros L1 L2 H. unfold vmle. apply mle_ext. rewrite L2. intros k Hk. apply mle_ext. rewrite L1. intros j Hj. now rewrite H. Qed.

Fixpoint rchain (n : nat) (ls : list player) : Prop :=
  match ls with [] => True | l :: r => pl_ovars K l = n /\ rchain (pl_ivars K l) r end.

(** One unlucky alpha at most. *)
Lemma alpha_few (x y tx ty : K) : x <> tx \/ y <> ty -> (length (filter (fun a => feqb (x + y * a)%K (tx + ty * a)%K) S) <= 1)%nat.
Proof.
  intros H.
  assert (P : forall u v : K, polyfn 1 (fun a => u + v * a)) by (intros u v; exists [u; v]; split; [auto|]; intros a; cbn; ring).
  destruct (feq_dec x tx) as [E|E].
  - destruct H as [H|H]; [easy|]. apply (few_agree (fun a => x + y * a) (fun a => tx + ty * a) 1 1); auto.
    intros F. apply H. transitivity (x + y * 1 - x); [ring|]. rewrite F, E. ring.
  - apply (few_agree (fun a => x + y * a) (fun a => tx + ty * a) 1 0); auto. intros F. apply E.
    transitivity (x + y * 0); [ring|]. rewrite F. ring.
Qed.

Theorem layers_sound lag : new_lagrange K = Some lag -> forall ls n outs ch v0 v1 alpha b j seen,
  rchain n ls -> (forall l, In l ls -> layer_ok (npub pub) l) -> computes ls outs -> ch_ok n ch ->
  same_none (rz_1 ch) v1 = true -> same_none (rz_1 ch) alpha = true ->
  claimed v0 v1 alpha <> claim_value K (as_values outs) ch alpha ->
  few (draws (concat (map (layer_script simd_vars mpi_vars) ls))) (list_sum (map (layer_error simd_vars mpi_vars) ls))
    (fun r => accepts (clean_layers lag ls pub b ch v0 v1 alpha (play (concat (map (layer_script simd_vars mpi_vars) ls)) j seen r) r)).
Proof.
  intros El. induction ls as [|l ls IH]; intros n outs ch v0 v1 alpha b j seen HC HL HE C S1 S2 Hv.
  - cbn [map concat list_sum fold_right draws]. apply few_none. intros r _. cbn [GkrClean.clean_layers accepts].
    destruct b; [|reflexivity]. destruct (claims_ok ch v0 v1) eqn:E; [|reflexivity]. exfalso. apply Hv.
    cbn [computes] in HE. unfold claim_value, claimed, claims_hold in *. apply andb_prop in E as (E0 & E1). apply feqb_eq in E0.
    assert (X : forall z, vmle (as_values outs) z (r_simd ch) (r_mpi ch) = vmle (as_values inp) z (r_simd ch) (r_mpi ch)).
    { intros z. apply vmle_ext; try apply C. intros k jj Hk Hj. unfold as_values. now rewrite HE. }
    rewrite !X, <- E0. destruct (rz_1 ch) as [z|]; destruct v1 as [v1|]; try discriminate; destruct alpha as [a|]; try discriminate.
    + apply feqb_eq in E1. now rewrite X, <- E1.
    + ring.
  - destruct HC as (En & HC). destruct HE as (vals & HV & HE). rewrite <- En in C. clear n En.
    assert (Hl : layer_ok (npub pub) l) by (apply HL; now left).
    cbn [map concat]. change (list_sum (layer_error simd_vars mpi_vars l :: map (layer_error simd_vars mpi_vars) ls))
      with (layer_error simd_vars mpi_vars l + list_sum (map (layer_error simd_vars mpi_vars) ls))%nat.
    set (es := concat (map (layer_script simd_vars mpi_vars) ls)) in *. set (D := list_sum (map (layer_error simd_vars mpi_vars) ls)) in *.
    assert (HL' : forall l0, In l0 ls -> layer_ok (npub pub) l0) by (intros; apply HL; now right).
    set (V := as_values vals). set (m := pl_ivars K l) in *.
    set (bot := if empty (pl_mul K l) then [] else rounds_script m 2 ++ [Read; Draw]).
    set (Nb := if empty (pl_mul K l) then draws es else (m + Datatypes.S (draws es))%nat).
    set (Db := (if empty (pl_mul K l) then 0 else 2 * m + 1)%nat).
    assert (Ed : draws (layer_script simd_vars mpi_vars l ++ es) = (m + (simd_vars + (mpi_vars + Nb)))%nat).
    { unfold layer_script. fold m bot. rewrite rounds_script_app, !draws_app, !draws_rounds. unfold Nb, bot.
      destruct (empty (pl_mul K l)); cbn [draws filter length]; rewrite ?draws_app, ?draws_rounds; cbn; lia. }
    assert (Ee : (layer_error simd_vars mpi_vars l + D = 2 * m + (3 * simd_vars + (3 * mpi_vars + (Db + D))))%nat) by (unfold layer_error, Db; fold m; lia).
    assert (Es : layer_script simd_vars mpi_vars l ++ es = rounds_script m 2 ++ rounds_script simd_vars 3 ++ rounds_script mpi_vars 3 ++ [Read] ++ bot ++ es).
    { unfold layer_script. fold m bot. now rewrite rounds_script_app, <- !app_assoc. }
    rewrite Ed, Ee, Es. clear Ed Ee Es.
    (* the rest of the protocol after the second phase *)
    set (tail := fun (o : option (bool * dual_challenge K * K * option K * reader K * list K)) =>
      let* (cur, ch, v0, v1, rd, t) := o in
      let* (alpha, t) := sample_alpha K (list K) (tape_sample K) ch t in
      clean_layers lag ls pub (b && cur) ch v0 v1 alpha rd t).
    assert (Htail : forall ch v0 v1 rd t, accepts (tail (Some (false, ch, v0, v1, rd, t))) = false).
    { intros ch' v0' v1' rd' t'. unfold tail. cbn [obind]. rewrite andb_false_r.
      destruct (sample_alpha K (list K) (tape_sample K) ch' t') as [[a u]|]; [|reflexivity]. cbn [obind]. apply layers_rej. }
    set (Acc := fun o => accepts (tail o)).
    assert (HN : Acc None = false) by reflexivity.
    apply few_ext with (fun r => Acc (clean_layer lag l pub ch v0 v1 alpha (play (rounds_script m 2 ++ rounds_script simd_vars 3 ++ rounds_script mpi_vars 3 ++ [Read] ++ bot ++ es) j seen r) r)).
    { intros r _. unfold Acc, tail. reflexivity. }
    unfold GkrClean.clean_layer. fold m.
    fold (claimed v0 v1 alpha).
    set (sum0 := claimed v0 v1 alpha - clean_cst K simd_vars mpi_vars (pl_const K l) pub ch alpha).
    assert (Hs0 : sum0 <> cube_sum m (Q1 K simd_vars mpi_vars l ch alpha vals)).
    { unfold m. rewrite <- (A1 K simd_vars mpi_vars l ch alpha pub vals outs Hl C HE). unfold sum0. intros F. apply Hv.
      transitivity (claimed v0 v1 alpha - clean_cst K simd_vars mpi_vars (pl_const K l) pub ch alpha + clean_cst K simd_vars mpi_vars (pl_const K l) pub ch alpha); [ring|]. rewrite F. ring. }
    cbv zeta.
    apply rounds_sound with (P := Q1 K simd_vars mpi_vars l ch alpha vals); auto.
    { intros s rx rd t. cbv beta iota. apply rounds_rej; auto. intros s2 rs rd2 t2. cbv beta iota. apply rounds_rej; auto. intros s3 rm rd3 t3. cbv beta iota.
      destruct (try_deserialize_field K rd3) as [[vx vxok] rd4]. destruct (negb (empty (pl_mul K l))).
      - cbn [andb]. apply rounds_rej; auto. intros s4 ry rd5 t5. cbv beta iota. destruct (try_deserialize_field K rd5) as [[vy vyok] rd6]. apply Htail.
      - cbn [andb]. apply Htail. }
    { apply deg_of, D1. }
    intros b1 s1 rx j1 seen1 Lx H1. cbv beta iota. cbn [app].
    rewrite (A2 K simd_vars mpi_vars l ch alpha vals C rx) in H1.
    apply rounds_sound with (P := Q2 K mpi_vars l ch alpha vals rx); auto.
    { intros s2 rs rd2 t2. cbv beta iota. apply rounds_rej; auto. intros s3 rm rd3 t3. cbv beta iota.
      destruct (try_deserialize_field K rd3) as [[vx vxok] rd4]. destruct (negb (empty (pl_mul K l))).
      - cbn [andb]. apply rounds_rej; auto. intros s4 ry rd5 t5. cbv beta iota. destruct (try_deserialize_field K rd5) as [[vy vyok] rd6]. apply Htail.
      - cbn [andb]. apply Htail. }
    { apply deg_of, D2. exact C. }
    intros b2 s2 rs j2 seen2 Ls H2. cbv beta iota. cbn [app].
    rewrite (A3 K simd_vars mpi_vars l ch alpha vals C rx rs) in H2.
    apply rounds_sound with (P := Q3 K l ch alpha vals rx rs); auto.
    { intros s3 rm rd3 t3. cbv beta iota.
      destruct (try_deserialize_field K rd3) as [[vx vxok] rd4]. destruct (negb (empty (pl_mul K l))).
      - cbn [andb]. apply rounds_rej; auto. intros s4 ry rd5 t5. cbv beta iota. destruct (try_deserialize_field K rd5) as [[vy vyok] rd6]. apply Htail.
      - cbn [andb]. apply Htail. }
    { apply deg_of. eapply D3. exact C. }
    intros b3 s3 rm j3 seen3 Lm H3. cbv beta iota. cbn [app Gkr.play].
    (* the claim vx *)
    destruct (read_known 1 [prover j3 seen3] eq_refl) as (px & okx & Lpx & Ex).
    destruct px as [|vx [|]]; try discriminate.
    assert (Ex' : forall rest, try_deserialize_field K (prover j3 seen3 :: rest) = (vx, okx, rest)).
    { intros rest. specialize (Ex rest []). cbn [read_message app] in Ex.
      destruct (try_deserialize_field K (prover j3 seen3 :: rest)) as [[v ok] rd]. injection Ex as -> E2 ->. rewrite andb_true_r in E2. now subst. }
    clear Ex.
    set (ch' := fun ry => {| rz_0 := rx; rz_1 := ry; r_simd := rs; r_mpi := rm |}).
    assert (C' : forall ry, (forall z, ry = Some z -> length z = m) -> ch_ok m (ch' ry)) by (intros ry Hry; constructor; auto).
    set (tx := vmle V rx rs rm).
    set (s4 := s3 - vx * clean_add K (pl_add K l) ch alpha rx rs rm).
    destruct (empty (pl_mul K l)) eqn:Em; cbn [negb].
    + (* no multiplications *)
      apply few_ext with (fun r => Acc (Some ((b3 && okx) && feqb s4 0, ch' None, vx, None, play (bot ++ es) (Datatypes.S j3) seen3 r, r))).
      { intros r _. rewrite Ex'. reflexivity. }
      unfold bot, Nb, Db in *. clear bot Nb Db. cbn [app Nat.add].
      assert (Em' : pl_mul K l = []) by (destruct (pl_mul K l); [reflexivity|discriminate]).
      destruct (feq_dec vx tx) as [Ev|Ev].
      * apply few_none. intros r _. assert (F : feqb s4 0 = false).
        { destruct (feqb s4 0) eqn:F; [|reflexivity]. exfalso. apply feqb_eq in F. apply H3.
          transitivity (s4 + vx * clean_add K (pl_add K l) ch alpha rx rs rm); [unfold s4; ring|]. rewrite F, Ev.
          assert (G := A6 K mpi_vars l ch alpha pub vals Hl rx rs rm Em' Lx). fold V tx in G.
          transitivity (Q3 K l ch alpha vals rx rs rm - tx * clean_add K (pl_add K l) ch alpha rx rs rm + tx * clean_add K (pl_add K l) ch alpha rx rs rm); [rewrite G; ring|ring]. }
        rewrite F, andb_false_r. apply Htail.
      * apply few_ext with (fun r => accepts (clean_layers lag ls pub (b && ((b3 && okx) && feqb s4 0)) (ch' None) vx None None (play es (Datatypes.S j3) seen3 r) r)).
        { intros r _. reflexivity. }
        apply IH with (n := m) (outs := vals); auto.
        { apply C'. discriminate. }
        unfold claimed, claim_value. cbn [rz_0 ch' r_simd r_mpi]. fold V tx. intros F. apply Ev. rewrite F. ring.
    + (* phase two *)
      apply few_ext with (fun r => Acc (let* (verified, sum, ry, rd, t) := verify_rounds lag m 2 (b3 && okx) s4 [] (play (rounds_script m 2 ++ [Read; Draw] ++ es) (Datatypes.S j3) seen3 r) r in
        let '(vy, vy_ok, rd) := try_deserialize_field K rd in
        Some (verified && vy_ok && feqb sum (vx * vy * clean_mul K (pl_mul K l) ch alpha rx ry rs rm), ch' (Some ry), vx, Some vy, rd, t))).
      { intros r _. rewrite Ex'. unfold bot. rewrite <- app_assoc. reflexivity. }
      unfold Nb, Db in *. clear bot Nb Db.
      assert (Hrej : rej _ Acc (fun '(verified, sum, ry, rd, t) => let '(vy, vy_ok, rd) := try_deserialize_field K rd in
        Some (verified && vy_ok && feqb sum (vx * vy * clean_mul K (pl_mul K l) ch alpha rx ry rs rm), ch' (Some ry), vx, Some vy, rd, t))).
      { intros s5 ry rd t. cbv beta iota. destruct (try_deserialize_field K rd) as [[vy vyok] rd6]. apply Htail. }
      (* after phase two: a false claim stays false except for one alpha *)
      assert (Hend : forall cur ry vy j4 seen4, length ry = m -> vx <> tx \/ vy <> vmle V ry rs rm ->
        few (Datatypes.S (draws es)) (1 + D) (fun r => Acc (Some (cur, ch' (Some ry), vx, Some vy, play (Draw :: es) j4 seen4 r, r)))).
      { intros cur ry vy j4 seen4 Ly Hxy.
        apply few_step with (bad := fun a => feqb (vx + vy * a) (tx + vmle V ry rs rm * a)); [now apply alpha_few|].
        intros a Ha Hbad.
        apply few_ext with (fun r => accepts (clean_layers lag ls pub (b && cur) (ch' (Some ry)) vx (Some vy) (Some a) (play es j4 (seen4 ++ [a]) r) r)).
        { intros r _. reflexivity. }
        apply IH with (n := m) (outs := vals); auto.
        - apply C'. intros z Ez. now injection Ez as <-.
        - unfold claimed, claim_value. cbn [rz_0 rz_1 ch' r_simd r_mpi]. fold V tx. intros F.
          assert (F' : feqb (vx + vy * a) (tx + vmle V ry rs rm * a) = true) by now apply feqb_eq. congruence. }
      destruct (feq_dec vx tx) as [Ev|Ev].
      * apply few_weaken with (2 * m + (1 + D))%nat; [|lia].
        apply rounds_sound with (P := Q4 K l ch alpha vals tx rx rs rm); auto.
        { apply deg_of, D4. }
        { assert (G := A4 K mpi_vars l ch alpha pub vals Hl rx rs rm Lx). fold V tx m in G. unfold m at 1. fold m. rewrite <- G.
          intros F. apply H3. transitivity (s4 + vx * clean_add K (pl_add K l) ch alpha rx rs rm); [unfold s4; ring|]. rewrite F, Ev. ring. }
        intros b5 s5 ry j5 seen5 Ly H5. cbv beta iota. cbn [app Gkr.play].
        destruct (read_known 1 [prover j5 seen5] eq_refl) as (py & oky & Lpy & Ey).
        destruct py as [|vy [|]]; try discriminate.
        assert (Ey' : forall rest, try_deserialize_field K (prover j5 seen5 :: rest) = (vy, oky, rest)).
        { intros rest. specialize (Ey rest []). cbn [read_message app] in Ey.
          destruct (try_deserialize_field K (prover j5 seen5 :: rest)) as [[v ok] rd]. injection Ey as -> E2 ->. rewrite andb_true_r in E2. now subst. }
        clear Ey.
        assert (G := A5 K mpi_vars l ch alpha pub vals Hl tx rx rs rm ry Ly). fold V in G. rewrite G in H5.
        destruct (feq_dec vy (vmle V ry rs rm)) as [Ew|Ew].
        { apply few_none. intros r _. rewrite Ey'. assert (F : feqb s5 (vx * vy * clean_mul K (pl_mul K l) ch alpha rx ry rs rm) = false).
          { destruct (feqb s5 (vx * vy * clean_mul K (pl_mul K l) ch alpha rx ry rs rm)) eqn:F; [|reflexivity]. exfalso. apply feqb_eq in F. apply H5. now rewrite F, Ev, Ew. }
          rewrite F, andb_false_r. apply Htail. }
        eapply few_ext; [|apply (Hend (b5 && oky && feqb s5 (vx * vy * clean_mul K (pl_mul K l) ch alpha rx ry rs rm)) ry vy (Datatypes.S j5) seen5 Ly (or_intror Ew))].
        intros r _. rewrite Ey'. reflexivity.
      * apply few_weaken with (1 + D)%nat; [|lia].
        apply rounds_any; auto.
        intros b5 s5 ry j5 seen5 Ly. cbv beta iota. cbn [app Gkr.play].
        destruct (read_known 1 [prover j5 seen5] eq_refl) as (py & oky & Lpy & Ey).
        destruct py as [|vy [|]]; try discriminate.
        assert (Ey' : forall rest, try_deserialize_field K (prover j5 seen5 :: rest) = (vy, oky, rest)).
        { intros rest. specialize (Ey rest []). cbn [read_message app] in Ey.
          destruct (try_deserialize_field K (prover j5 seen5 :: rest)) as [[v ok] rd]. injection Ey as -> E2 ->. rewrite andb_true_r in E2. now subst. }
        clear Ey.
        eapply few_ext; [|apply (Hend (b5 && oky && feqb s5 (vx * vy * clean_mul K (pl_mul K l) ch alpha rx ry rs rm)) ry vy (Datatypes.S j5) seen5 Ly (or_introl Ev))].
        intros r _. rewrite Ey'. reflexivity.
Qed.

(** ** The circuit *)
Lemma fits_rchain M : forall ls n, fits K M n ls -> rchain n ls.
Proof. induction ls as [|l ls IH]; intros n H; [exact I|]. destruct H as (E & _ & _ & H). split; auto. Qed.
Lemma last_rev {A} (a : A) l d : exists r, rev (a :: l) = last (a :: l) d :: r.
Proof.
  assert (E := app_removelast_last d (l := a :: l) ltac:(discriminate)). exists (rev (removelast (a :: l))).
  rewrite E at 1. now rewrite rev_app_distr.
Qed.
Lemma rchain_circuit (ls : list player) : chained ls -> rchain (out_vars ls) (rev ls).
Proof.
  intros C. destruct ls as [|a ls]; [exact I|].
  destruct (last_rev a ls a) as (r & E). unfold out_vars. rewrite E at 1.
  apply fits_rchain with (width K (a :: ls)). apply fits_circuit; auto. now apply chained_ivars.
Qed.
Lemma computes_eval : forall ls outs,
  (forall k j, (k < 2 ^ mpi_vars)%nat -> (j < 2 ^ simd_vars)%nat ->
    for_each (rev ls) (fun l vals => eval_layer K l vals (lane_pub mpi_vars pub k j)) (inp k j) = Some (outs k j)) ->
  computes ls outs.
Proof.
  induction ls as [|l ls IH]; intros outs H; cbn [computes].
  - intros k j Hk Hj. specialize (H k j Hk Hj). cbn in H. now injection H.
  - set (run := fun k j => for_each (rev ls) (fun l vals => eval_layer K l vals (lane_pub mpi_vars pub k j)) (inp k j)).
    exists (fun k j => match run k j with Some v => v | None => [] end). split.
    + apply IH. intros k j Hk Hj. specialize (H k j Hk Hj). cbn [rev] in H. rewrite for_each_app in H. fold (run k j) in *.
      destruct (run k j); [reflexivity|discriminate].
    + intros k j Hk Hj. specialize (H k j Hk Hj). cbn [rev] in H. rewrite for_each_app in H. fold (run k j) in H.
      destruct (run k j) as [v|]; [|discriminate]. cbn [obind for_each] in H.
      destruct (eval_layer K l v (lane_pub mpi_vars pub k j)); [exact H|discriminate].
Qed.
Lemma samples_tape n : forall z r, length z = n -> samples K (list K) (tape_sample K) n (z ++ r) = Some (z, r).
Proof.
  induction n as [|n IH]; intros z r L; destruct z as [|a z]; try discriminate; [reflexivity|].
  cbn [samples app tape_sample obind]. rewrite IH by (now injection L). reflexivity.
Qed.
Lemma list_sum_rev (l : list nat) : list_sum (rev l) = list_sum l.
Proof.
  induction l as [|a l IH]; auto. cbn [rev]. rewrite list_sum_app, IH.
  change (list_sum (a :: l)) with (a + list_sum l)%nat. change (list_sum [a]) with (a + 0)%nat. lia.
Qed.

Theorem gkr_sound layers outs zeros rz rs rm v : circuit_ok (npub pub) layers ->
  (forall k j, (k < 2 ^ mpi_vars)%nat -> (j < 2 ^ simd_vars)%nat ->
    evaluate K {| pc_layers := layers; pc_zeros := zeros |} (inp k j) (lane_pub mpi_vars pub k j) = Some (outs k j)) ->
  length rz = out_vars layers -> length rs = simd_vars -> length rm = mpi_vars ->
  v <> vmle (as_values outs) rz rs rm ->
  few (draws (script simd_vars mpi_vars layers)) (gkr_error simd_vars mpi_vars layers)
    (fun r => accepts (gkr_verify K simd_vars mpi_vars (list K) (tape_append K) (tape_sample K) layers pub v
       (play (script simd_vars mpi_vars layers) 0%nat (rz ++ rs ++ rm) r) (rz ++ rs ++ rm ++ r))).
Proof.
  intros HC HE L1 L2 L3 Hv.
  apply few_ext with (fun r => accepts (clean_verify K simd_vars mpi_vars (list K) (tape_append K) (tape_sample K) layers pub v
       (play (script simd_vars mpi_vars layers) 0%nat (rz ++ rs ++ rm) r) (rz ++ rs ++ rm ++ r))).
  { intros r _. now rewrite gkr_verify_clean. }
  unfold clean_verify. destruct (new_lagrange K) as [lag|] eqn:El; [|apply few_none; reflexivity].
  destruct layers as [|a ls]; [now destruct HC|].
  assert (HR := rchain_circuit (a :: ls) (proj1 (proj2 HC))).
  destruct (last_rev a ls a) as (q & Eq).
  assert (Eo : pl_ovars K (last (a :: ls) a) = out_vars (a :: ls)) by (unfold out_vars; now rewrite Eq).
  set (ch := {| rz_0 := rz; rz_1 := None; r_simd := rs; r_mpi := rm |}).
  apply few_ext with (fun r => accepts (clean_layers lag (rev (a :: ls)) pub true ch v None None
      (play (concat (map (layer_script simd_vars mpi_vars) (rev (a :: ls)))) 0%nat (rz ++ rs ++ rm) r) r)).
  { intros r _. cbn [obind]. rewrite (aget_last ls a a). cbn [obind]. unfold sample_from_transcript.
    rewrite samples_tape by (now rewrite Eo). cbn [obind]. rewrite samples_tape by auto. cbn [obind]. rewrite samples_tape by auto. reflexivity. }
  unfold script, gkr_error. rewrite <- list_sum_rev, <- map_rev.
  apply layers_sound with (n := out_vars (a :: ls)) (outs := outs); auto.
  - intros l Hl. apply HC. now apply in_rev.
  - apply computes_eval. rewrite rev_involutive. intros k j Hk Hj. exact (HE k j Hk Hj).
  - constructor; auto. discriminate.
  - unfold claimed, claim_value. cbn [rz_0 rz_1 r_simd r_mpi ch]. intros F. apply Hv. rewrite F. ring.
Qed.

(** ** Random points *)
Lemma sz_mle N D n : forall f i acc, (i < 2 ^ n)%nat -> f i <> 0 ->
  (forall z, length z = n -> mle f z <> 0 -> few N D (fun r => acc (z ++ r))) -> few (n + N) (n + D) acc.
Proof.
  induction n as [|n IH]; intros f i acc Hi Hf H.
  - cbn in Hi. assert (i = O) by lia. subst i. apply (H [] eq_refl). now rewrite mle_nil.
  - cbn [Nat.add]. set (g := fun (a : K) i => (1 - a) * f (2 * i)%nat + a * f (2 * i + 1)%nat).
    assert (Eg : forall a z, mle f (a :: z) = mle (g a) z).
    { intros a z. rewrite mle_cons. unfold g. now rewrite mle_plus, !mle_scale. }
    set (i' := (i / 2)%nat). assert (Hi' : (i' < 2 ^ n)%nat) by (apply Nat.div_lt_upper_bound; [lia|]; now rewrite <- Nat.pow_succ_r').
    assert (Hx : exists x0, g x0 i' <> 0).
    { assert (E := Nat.div_mod_eq i 2). assert (B := Nat.mod_upper_bound i 2 ltac:(lia)). fold i' in E.
      destruct (i mod 2) as [|[|]]; [exists 0|exists 1|lia]; unfold g.
      - intros F. apply Hf. rewrite E, Nat.add_0_r. transitivity ((1 - 0) * f (2 * i')%nat + 0 * f (2 * i' + 1)%nat); [ring|exact F].
      - intros F. apply Hf. rewrite E. transitivity ((1 - 1) * f (2 * i')%nat + 1 * f (2 * i' + 1)%nat); [ring|exact F]. }
    destruct Hx as (x0 & Hx).
    apply (few_step K S (n + N) (n + D) 1 acc (fun a => feqb (g a i') 0)).
    + apply (few_agree (fun a => g a i') (fun _ => 0) 1 x0); auto.
      * exists [f (2 * i')%nat; f (2 * i' + 1)%nat - f (2 * i')%nat]. split; [auto|]. intros x. cbn [peval]. unfold g. ring.
      * exists []. split; [cbn; lia|]. reflexivity.
    + intros a Ha Hbad. apply (IH (g a) i'); auto.
      * intros F. assert (F' : feqb (g a i') 0 = true) by now apply feqb_eq. congruence.
      * intros z Lz Hz. apply (H (a :: z)); [cbn; lia|]. now rewrite Eg.
Qed.

(** If the claim at a random point is required to be zero, outputs that are not all zero pass rarely. *)
Theorem gkr_zero_sound layers outs zeros : circuit_ok (npub pub) layers ->
  (forall k j, (k < 2 ^ mpi_vars)%nat -> (j < 2 ^ simd_vars)%nat ->
    evaluate K {| pc_layers := layers; pc_zeros := zeros |} (inp k j) (lane_pub mpi_vars pub k j) = Some (outs k j)) ->
  (exists k j o, (k < 2 ^ mpi_vars)%nat /\ (j < 2 ^ simd_vars)%nat /\ (o < 2 ^ out_vars layers)%nat /\ nth o (outs k j) 0 <> 0) ->
  few (out_vars layers + (simd_vars + (mpi_vars + draws (script simd_vars mpi_vars layers))))
    (out_vars layers + (simd_vars + (mpi_vars + gkr_error simd_vars mpi_vars layers)))
    (fun c => let n := (out_vars layers + simd_vars + mpi_vars)%nat in
       accepts (gkr_verify K simd_vars mpi_vars (list K) (tape_append K) (tape_sample K) layers pub 0
         (play (script simd_vars mpi_vars layers) 0%nat (firstn n c) (skipn n c)) c)).
Proof.
  intros HC HE (k & j & o & Hk & Hj & Ho & Hz).
  apply (sz_mle _ _ (out_vars layers) (as_values outs k j) o); auto.
  intros rz Lz Hrz. apply (sz_mle _ _ simd_vars (fun j => mle (as_values outs k j) rz) j); auto.
  intros rs Ls Hrs. apply (sz_mle _ _ mpi_vars (fun k => mle (fun j => mle (as_values outs k j) rz) rs) k); auto.
  intros rm Lm Hrm. eapply few_ext; [|apply (gkr_sound layers outs zeros rz rs rm 0 HC HE Lz Ls Lm)].
  - intros r _. cbv beta zeta.
    assert (E : rz ++ rs ++ rm ++ r = (rz ++ rs ++ rm) ++ r) by now rewrite <- !app_assoc.
    assert (Ln : (out_vars layers + simd_vars + mpi_vars)%nat = length (rz ++ rs ++ rm)) by (rewrite !app_length; lia).
    rewrite E, Ln, firstn_app, skipn_app, firstn_all, skipn_all, Nat.sub_diag. cbn [firstn skipn]. now rewrite app_nil_r.
  - intros F. apply Hrm. symmetry. exact F.
Qed.
End Proofs.

(** in the form of the property theorems *)
Theorem gkr_sound_full (K : field) (simd_vars mpi_vars : nat) (S : list K) prover layers zeros pub inp outs rz rs rm v :
  NoDup S -> circuit_ok (length pub / 2 ^ mpi_vars) layers -> simd_ok simd_vars pub ->
  (forall k j, (k < 2 ^ mpi_vars)%nat -> (j < 2 ^ simd_vars)%nat ->
     evaluate K {| pc_layers := layers; pc_zeros := zeros |} (inp k j) (lane_pub mpi_vars pub k j) = Some (outs k j)) ->
  length rz = out_vars layers -> length rs = simd_vars -> length rm = mpi_vars ->
  v <> vmle (as_values outs) rz rs rm ->
  let es := script simd_vars mpi_vars layers in
  let accepted r :=
    match gkr_verify K simd_vars mpi_vars (list K) (tape_append K) (tape_sample K) layers pub v
            (play prover es 0 (rz ++ rs ++ rm) r) (rz ++ rs ++ rm ++ r) with
    | Some (true, ch, v0, v1, _, _) => claims_hold inp ch v0 v1
    | _ => false
    end in
  (length (filter accepted (vectors (draws es) S)) * length S <= gkr_error simd_vars mpi_vars layers * length S ^ draws es)%nat.
Proof. intros HS HC HP HE L1 L2 L3 Hv. exact (gkr_sound K simd_vars mpi_vars S HS prover pub inp HP layers outs zeros rz rs rm v HC HE L1 L2 L3 Hv). Qed.
Theorem gkr_zero_sound_full (K : field) (simd_vars mpi_vars : nat) (S : list K) prover layers zeros pub inp outs :
  NoDup S -> circuit_ok (length pub / 2 ^ mpi_vars) layers -> simd_ok simd_vars pub ->
  (forall k j, (k < 2 ^ mpi_vars)%nat -> (j < 2 ^ simd_vars)%nat ->
     evaluate K {| pc_layers := layers; pc_zeros := zeros |} (inp k j) (lane_pub mpi_vars pub k j) = Some (outs k j)) ->
  (exists k j o, (k < 2 ^ mpi_vars)%nat /\ (j < 2 ^ simd_vars)%nat /\ (o < 2 ^ out_vars layers)%nat /\ nth o (outs k j) 0%K <> 0%K) ->
  let es := script simd_vars mpi_vars layers in
  let n := (out_vars layers + simd_vars + mpi_vars)%nat in
  let accepted c :=
    match gkr_verify K simd_vars mpi_vars (list K) (tape_append K) (tape_sample K) layers pub 0%K
            (play prover es 0 (firstn n c) (skipn n c)) c with
    | Some (true, ch, v0, v1, _, _) => claims_hold inp ch v0 v1
    | _ => false
    end in
  (length (filter accepted (vectors (n + draws es) S)) * length S <= (n + gkr_error simd_vars mpi_vars layers) * length S ^ (n + draws es))%nat.
Proof.
  intros HS HC HP HE HZ. cbv zeta.
  assert (H := gkr_zero_sound K simd_vars mpi_vars S HS prover pub inp HP layers outs zeros HC HE HZ).
  unfold few in H.
  replace (out_vars layers + simd_vars + mpi_vars + draws (script simd_vars mpi_vars layers))%nat
    with (out_vars layers + (simd_vars + (mpi_vars + draws (script simd_vars mpi_vars layers))))%nat by lia.
  replace (out_vars layers + simd_vars + mpi_vars + gkr_error simd_vars mpi_vars layers)%nat
    with (out_vars layers + (simd_vars + (mpi_vars + gkr_error simd_vars mpi_vars layers)))%nat by lia.
  exact H.
Qed.
