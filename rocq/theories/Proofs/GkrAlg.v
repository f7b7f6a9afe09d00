(** The algebra of one GKR layer: the polynomials of its two sumcheck phases. *)
From Coq Require Import List Bool Arith Lia Ring Field.
From Verif Require Import Base.Field Base.Array Base.Poly Spec.Multilinear Spec.Sumcheck Spec.Gkr Model.Polynomials Model.Layered Model.Gkr
  Proofs.Multilinear Proofs.Polynomials Proofs.Sumcheck Proofs.GkrClean Proofs.GkrVerify.
Import ListNotations.

Section Proofs.
Variable K : field.
Add Field Kf : (fth K).
Local Open Scope fld_scope.
Local Notation player := (player K).
Local Notation pgate := (pgate K).

(** ** Interpolation *)
Lemma new_lagrange_val lag : new_lagrange K = Some lag ->
  (1 + 1 : K) <> 0 /\ (1 + 1 + 1 : K) <> 0 /\
  deg3_eval_at lag = [0; 1; 1 + 1; 1 + 1 + 1] /\
  deg3_lag_denoms_inv lag = [finv (- (1 + 1) * (1 + 1 + 1)); finv (1 + 1); finv (- (1 + 1)); finv ((1 + 1) * (1 + 1 + 1))].
Proof.
  unfold new_lagrange. intros E.
  destruct (lag_denoms_inv K (map f_of_nat (seq 0 4))) as [i3|] eqn:E3; [|discriminate]. cbn [obind] in E.
  destruct (lag_denoms_inv K (map f_of_nat (seq 0 7))) as [i6|] eqn:E6; [|discriminate]. cbn [obind] in E.
  injection E as <-. clear E6. cbn [deg3_eval_at deg3_lag_denoms_inv].
  cbn in E3. unfold inv_unwrap in E3.
  match type of E3 with context [feqb ?a 0] => destruct (feqb a 0) eqn:F0; [discriminate|]; replace a with (- (1 + 1) * (1 + 1 + 1) : K) in * by ring end.
  cbn [obind] in E3.
  match type of E3 with context [feqb ?a 0] => destruct (feqb a 0) eqn:F1; [discriminate|]; replace a with (1 + 1 : K) in * by ring end.
  cbn [obind] in E3.
  match type of E3 with context [feqb ?a 0] => destruct (feqb a 0) eqn:F2; [discriminate|]; replace a with (- (1 + 1) : K) in * by ring end.
  cbn [obind] in E3.
  match type of E3 with context [feqb ?a 0] => destruct (feqb a 0) eqn:F3; [discriminate|]; replace a with ((1 + 1) * (1 + 1 + 1) : K) in * by ring end.
  cbn [obind] in E3. injection E3 as <-.
  assert (N : forall a : K, feqb a 0 = false -> a <> 0). { intros a Ha H. apply feqb_eq in H. congruence. }
  apply N in F1, F3. split; [exact F1|]. split; [intros H; apply F3; rewrite H; ring|].
  split; [|reflexivity]. cbn. repeat (f_equal; try ring).
Qed.

Lemma fmul_inv_r (a : K) : a <> 0 -> a * finv a = 1.
Proof. intros H. field. exact H. Qed.
Lemma nz_prod (a b : K) : a <> 0 -> b <> 0 -> a * b <> 0.
Proof. intros Ha Hb H. apply fmul_integral in H. tauto. Qed.

Lemma nz_opp (a : K) : a <> 0 -> - a <> 0.
Proof. intros Ha H. apply Ha. replace a with (- - a) by ring. rewrite H. ring. Qed.

(** One round: the message is read as the polynomial of degree d through its values. *)
Lemma step_interp lag d ps : new_lagrange K = Some lag -> (d = 2 \/ d = 3)%nat -> length ps = (d + 1)%nat ->
  exists q, polyfn d q /\ (forall i, (i <= d)%nat -> q (f_of_nat i) = nth i ps 0) /\
    forall ok s r, step_val K lag d ps ok s r = Some (ok && feqb (q 0 + q 1) s, q r).
Proof.
  intros El Hd L. destruct (new_lagrange_val lag El) as (H2 & H3 & E1 & E2). destruct Hd as [->| ->].
  - destruct ps as [|p0 [|p1 [|p2 [|]]]]; try discriminate.
    set (c2 := finv (1 + 1) * (p2 - p1 - p1 + p0)). set (c1 := p1 - p0 - c2).
    exists (fun x => p0 + (c2 * x + c1) * x). split; [|split].
    + exists [p0; c1; c2]. split; [cbn; lia|]. intros x. cbn. ring.
    + intros [|[|[|i]]] Hi; try lia; cbn [f_of_nat nth]; unfold c1, c2; field; auto.
    + intros ok s r. unfold step_val. cbn [aget nth_error obind Nat.eqb degree_2_eval]. fold c2 c1.
      replace (p0 + (c2 * 0 + c1) * 0) with p0 by ring. replace (p0 + (c2 * 1 + c1) * 1) with p1 by (unfold c1; ring). reflexivity.
  - destruct ps as [|p0 [|p1 [|p2 [|p3 [|]]]]]; try discriminate.
    set (q := fun x : K => (x - 1) * (x - (1 + 1)) * (x - (1 + 1 + 1)) * finv (- (1 + 1) * (1 + 1 + 1)) * p0
       + x * (x - (1 + 1)) * (x - (1 + 1 + 1)) * finv (1 + 1) * p1
       + x * (x - 1) * (x - (1 + 1 + 1)) * finv (- (1 + 1)) * p2
       + x * (x - 1) * (x - (1 + 1)) * finv ((1 + 1) * (1 + 1 + 1)) * p3).
    assert (N2 := nz_opp _ H2). assert (N6 := nz_prod _ _ H2 H3). assert (N6' := nz_prod _ _ N2 H3).
    assert (Q0 : q 0 = p0) by (transitivity ((- (1 + 1) * (1 + 1 + 1)) * finv (- (1 + 1) * (1 + 1 + 1)) * p0); [unfold q; ring|rewrite fmul_inv_r by exact N6'; ring]).
    assert (Q1 : q 1 = p1) by (transitivity ((1 + 1) * finv (1 + 1) * p1); [unfold q; ring|rewrite fmul_inv_r by exact H2; ring]).
    exists q. split; [|split].
    + set (a := finv (- (1 + 1) * (1 + 1 + 1)) * p0). set (b := finv (1 + 1) * p1). set (c := finv (- (1 + 1)) * p2). set (e := finv ((1 + 1) * (1 + 1 + 1)) * p3).
      exists [- (1 + 1) * (1 + 1 + 1) * a;
              (1 + 1 + 1 + (1 + 1) * (1 + 1 + 1) + (1 + 1)) * a + (1 + 1) * (1 + 1 + 1) * b + (1 + 1 + 1) * c + (1 + 1) * e;
              - (1 + 1) * (1 + 1 + 1) * a - (1 + 1 + (1 + 1 + 1)) * b - (1 + (1 + 1 + 1)) * c - (1 + (1 + 1)) * e;
              a + b + c + e].
      split; [cbn; lia|]. intros x. unfold q, a, b, c, e. cbn [peval]. ring.
    + intros [|[|[|[|i]]]] Hi; try lia; cbn [f_of_nat nth].
      * exact Q0.
      * replace (1 + 0) with (1 : K) by ring. exact Q1.
      * transitivity ((- (1 + 1)) * finv (- (1 + 1)) * p2); [unfold q; ring|rewrite fmul_inv_r by exact N2; ring].
      * transitivity (((1 + 1) * (1 + 1 + 1)) * finv ((1 + 1) * (1 + 1 + 1)) * p3); [unfold q; ring|rewrite fmul_inv_r by exact N6; ring].
    + intros ok s r. unfold step_val. cbn [aget nth_error obind Nat.eqb]. unfold lag_eval. cbn [length obind]. rewrite E1, E2.
      cbn [seq for_in Nat.eqb obind aget nth_error]. rewrite Q0, Q1. do 2 f_equal. unfold q. ring.
Qed.

(** ** Sums *)
Lemma cube_sum_bits n (P : list K -> K) : cube_sum n P = sumn (2 ^ n) (fun i => P (bits_of K n i)).
Proof.
  revert P. induction n as [|n IH]; intros P; cbn [cube_sum].
  - cbn [Nat.pow]. rewrite sumn_1. reflexivity.
  - rewrite !IH, Nat.pow_succ_r', sumn_double. f_equal; apply sumn_ext; intros i _; f_equal; rewrite bits_of_S.
    + rewrite Nat.odd_mul. cbn [Nat.odd andb]. now replace (2 * i / 2)%nat with i by (rewrite Nat.mul_comm, Nat.div_mul; lia).
    + rewrite Nat.odd_add, Nat.odd_mul. cbn [Nat.odd andb xorb]. replace ((2 * i + 1) / 2)%nat with i; [reflexivity|].
      rewrite Nat.mul_comm, Nat.div_add_l by lia. cbn. lia.
Qed.
Lemma sum_eq_point (r : list K) : sumn (2 ^ length r) (eq_point r) = 1.
Proof.
  induction r as [|a r IH]; [cbn [length Nat.pow]; rewrite sumn_1; apply eq_point_nil|].
  cbn [length]. rewrite Nat.pow_succ_r', sumn_double.
  rewrite (sumn_ext K _ (fun i => eq_point (a :: r) (2 * i)) (fun i => (1 - a) * eq_point r i)) by (intros; apply eq_point_even).
  rewrite (sumn_ext K _ (fun i => eq_point (a :: r) (2 * i + 1)) (fun i => a * eq_point r i)) by (intros; apply eq_point_odd).
  rewrite !sumn_scale, IH. ring.
Qed.
Lemma mle_const (c : K) (r : list K) : mle (fun _ => c) r = c.
Proof. unfold mle. rewrite sumn_scale, sum_eq_point. ring. Qed.
Lemma mle_fsum {A} (F : A -> nat -> K) (gs : list A) (r : list K) :
  mle (fun i => fsum (map (fun g => F g i) gs)) r = fsum (map (fun g => mle (F g) r) gs).
Proof.
  induction gs as [|g gs IH]; cbn [map fsum]; [apply mle_const|]. rewrite mle_plus, IH. reflexivity.
Qed.
Lemma sumn_fsum {A} n (F : A -> nat -> K) (gs : list A) :
  sumn n (fun i => fsum (map (fun g => F g i) gs)) = fsum (map (fun g => sumn n (F g)) gs).
Proof.
  induction gs as [|g gs IH]; cbn [map fsum]; [apply sumn_zero; auto|]. rewrite sumn_plus, IH. reflexivity.
Qed.
Lemma mle_swap (F : nat -> nat -> K) (r s : list K) : mle (fun y => mle (fun l => F y l) s) r = mle (fun l => mle (fun y => F y l) r) s.
Proof.
  unfold mle.
  rewrite (sumn_ext K _ _ (fun y => sumn (2 ^ length s) (fun l => F y l * eq_point s l * eq_point r y))).
  2:{ intros y _. now rewrite sumn_scale_r. }
  rewrite sumn_swap. apply sumn_ext. intros l _. rewrite <- sumn_scale_r. apply sumn_ext. intros y _. ring.
Qed.
Lemma fsum_scale_map {A} (c : K) (F : A -> K) (gs : list A) : fsum (map (fun g => c * F g) gs) = c * fsum (map F gs).
Proof. apply fsum_map_scale. Qed.

Definition ind (a x : nat) : K := if (a =? x)%nat then 1 else 0.
Lemma pick1 n a (c : K) (f : nat -> K) : (a < n)%nat -> sumn n (fun x => c * ind a x * f x) = c * f a.
Proof.
  intros H. rewrite (sumn_single K n a); auto.
  - unfold ind. rewrite Nat.eqb_refl. ring.
  - intros i _ Hi. unfold ind. replace (a =? i)%nat with false by (symmetry; apply Nat.eqb_neq; lia). ring.
Qed.
Lemma pick {A} n (gs : list A) (a : A -> nat) (c : A -> K) (f : nat -> K) : (forall g, In g gs -> (a g < n)%nat) ->
  sumn n (fun x => fsum (map (fun g => c g * ind (a g) x) gs) * f x) = fsum (map (fun g => c g * f (a g)) gs).
Proof.
  intros H.
  rewrite (sumn_ext K _ _ (fun x => fsum (map (fun g => c g * ind (a g) x * f x) gs))).
  2:{ intros x _. rewrite (fmul_comm K _ (f x)), <- fsum_scale_map. apply fsum_ext. intros. ring. }
  rewrite sumn_fsum. apply fsum_ext. intros g Hg. apply pick1. auto.
Qed.
Lemma mle_pick {A} (gs : list A) (a : A -> nat) (c : A -> K) (r : list K) : (forall g, In g gs -> (a g < 2 ^ length r)%nat) ->
  mle (fun x => fsum (map (fun g => c g * ind (a g) x) gs)) r = fsum (map (fun g => c g * eq_point r (a g)) gs).
Proof. intros H. unfold mle. now apply pick. Qed.

(** ** Degrees *)
Lemma polyfn_sumn d n (F : nat -> K -> K) : (forall i, (i < n)%nat -> polyfn d (F i)) -> polyfn d (fun x => sumn n (fun i => F i x)).
Proof.
  induction n as [|n IH]; intros H.
  - apply polyfn_ext with (fun _ => 0); [intros; reflexivity|apply polyfn_const].
  - apply polyfn_ext with (fun x => sumn n (fun i => F i x) + F n x); [intros; now rewrite sumn_S|].
    apply polyfn_add; [apply IH; auto|apply H; lia].
Qed.
Lemma prod_degree (f g : nat -> K) n : individual_degree 2 n (fun x => mle f x * mle g x).
Proof. intros pre post _. apply (polyfn_mul K 1 1); apply mle_poly. Qed.
Lemma scale_degree d n (c : K) (P : list K -> K) : individual_degree d n P -> individual_degree d n (fun x => c * P x).
Proof. intros H pre post L. apply polyfn_scale. now apply H. Qed.
Lemma sumn_degree d n m (P : nat -> list K -> K) : (forall i, (i < m)%nat -> individual_degree d n (P i)) ->
  individual_degree d n (fun x => sumn m (fun i => P i x)).
Proof. intros H pre post L. apply (polyfn_sumn d m (fun i x => P i (pre ++ x :: post))). intros i Hi. now apply H. Qed.
Lemma degree_ext d n (P Q : list K -> K) : (forall x, length x = n -> P x = Q x) -> (1 <= n)%nat -> individual_degree d n P -> individual_degree d n Q.
Proof.
  intros E Hn H pre post L. eapply polyfn_ext; [|exact (H pre post L)]. intros x. apply E.
  rewrite app_length in *. cbn [length]. lia.
Qed.
Lemma eqv_degree (rs : list K) (f g : nat -> K) n : length rs = n ->
  individual_degree 3 n (fun x => eq_vec rs x * (mle f x * mle g x)).
Proof.
  intros L. destruct n as [|n].
  - intros pre post H. destruct pre; [|discriminate]. destruct post; [|discriminate]. destruct rs; [|discriminate]. cbn [app].
    apply polyfn_ext with (fun x => 1 * (mle f ([] ++ [x]) * mle g ([] ++ [x]))); [intros; reflexivity|]. apply polyfn_scale.
    apply (polyfn_le K 2); [lia|]. apply (polyfn_mul K 1 1); apply mle_poly.
  - apply degree_ext with (fun x => mle (eq_point rs) x * (mle f x * mle g x)).
    + intros x Hx. rewrite eq_vec_ok by congruence. reflexivity.
    + lia.
    + intros pre post _. apply (polyfn_mul K 1 2); [apply mle_poly|]. apply (polyfn_mul K 1 1); apply mle_poly.
Qed.

(** ** The values of a layer *)
Lemma bump_weight res o v res' (w : nat -> K) : bump K res o v = Some res' ->
  length res' = length res /\ sumn (length res) (fun i => nth i res' 0 * w i) = sumn (length res) (fun i => nth i res 0 * w i) + w o * v.
Proof.
  unfold bump. destruct (aget res o) as [x|] eqn:Ex; [|discriminate]. cbn [obind]. intros E.
  assert (Ho : (o < length res)%nat) by (apply nth_error_Some; unfold aget in Ex; congruence).
  destruct (aset_some res o (x + v) Ho) as (l' & E' & L & N). rewrite E' in E. injection E as <-. split; [exact L|].
  rewrite (sumn_ext K _ (fun i => nth i l' 0 * w i) (fun i => nth i res 0 * w i + v * ind o i * w i)).
  - rewrite sumn_plus, pick1 by auto. ring.
  - intros i Hi. assert (Hn := N i). unfold ind. rewrite (Nat.eqb_sym o i).
    destruct (Nat.eqb_spec i o) as [->|Hne].
    + apply (nth_error_nth _ _ 0) in Hn. apply (nth_error_nth _ _ 0) in Ex. rewrite Hn, Ex. ring.
    + rewrite (nth_error_nth' res 0 Hi) in Hn. apply (nth_error_nth _ _ 0) in Hn. rewrite Hn. ring.
Qed.
Lemma bumps_weight {A} (gs : list A) (o : A -> nat) (v : A -> option K) (v' : A -> K) (w : nat -> K) :
  (forall g x, In g gs -> v g = Some x -> x = v' g) -> forall res res',
  for_each gs (fun g res => let* x := v g in bump K res (o g) x) res = Some res' ->
  length res' = length res /\ sumn (length res) (fun i => nth i res' 0 * w i)
    = sumn (length res) (fun i => nth i res 0 * w i) + fsum (map (fun g => w (o g) * v' g) gs).
Proof.
  induction gs as [|g gs IH]; intros H res res' E; cbn [for_each map fsum] in *.
  - injection E as <-. split; [reflexivity|]. ring.
  - destruct (v g) as [x|] eqn:Ev; [|discriminate]. cbn [obind] in E.
    destruct (bump K res (o g) x) as [r1|] eqn:Eb; [|discriminate]. cbn [obind] in E.
    destruct (bump_weight _ _ _ _ w Eb) as (L1 & W1).
    destruct (IH (fun g' x' Hg => H g' x' (or_intror Hg)) _ _ E) as (L2 & W2). split; [congruence|].
    rewrite L1, W1 in W2. rewrite W2. rewrite (H g x (or_introl eq_refl) Ev). ring.
Qed.

Lemma for_each_ext' {A S} (xs : list A) (f g : A -> S -> option S) s : (forall x s, In x xs -> f x s = g x s) -> for_each xs f s = for_each xs g s.
Proof.
  revert s. induction xs as [|x xs IH]; intros s H; cbn [for_each]; auto. rewrite H by (now left).
  destruct (g x s); cbn; auto. apply IH. intros. apply H. now right.
Qed.

Definition cst_val (pub : list K) (g : pgate) : K := match pg_ctype K g with TPublicInput id => nth id pub 0 | _ => pg_coef K g end.

Lemma layer_weight l vals pub out (w : nat -> K) : pl_uni K l = [] -> eval_layer K l vals pub = Some out ->
  length out = (2 ^ pl_ovars K l)%nat /\
  sumn (2 ^ pl_ovars K l) (fun o => nth o out 0 * w o)
  = fsum (map (fun g => w (pg_out K g) * (nth (in0 K g) vals 0 * nth (in1 K g) vals 0 * pg_coef K g)) (pl_mul K l))
  + fsum (map (fun g => w (pg_out K g) * (nth (in0 K g) vals 0 * pg_coef K g)) (pl_add K l))
  + fsum (map (fun g => w (pg_out K g) * cst_val pub g) (pl_const K l)).
Proof.
  intros Hu E. unfold eval_layer in E. rewrite Hu in E.
  set (r0 := repeat (0 : K) (2 ^ pl_ovars K l)) in *.
  assert (L0 : length r0 = (2 ^ pl_ovars K l)%nat) by apply repeat_length.
  match type of E with obind (for_each _ ?f _) _ = _ =>
    rewrite (for_each_ext' (pl_mul K l) f (fun g res => let* x := (let* i0 := aget (pg_in K g) 0 in let* x := aget vals i0 in
      let* i1 := aget (pg_in K g) 1 in let* y := aget vals i1 in Some (x * y * pg_coef K g)) in bump K res (pg_out K g) x)) in E end.
  2:{ intros g s _. destruct (aget (pg_in K g) 0) as [i0|]; cbn [obind]; auto. destruct (aget vals i0); cbn [obind]; auto.
      destruct (aget (pg_in K g) 1) as [i1|]; cbn [obind]; auto. destruct (aget vals i1); cbn [obind]; auto. }
  destruct (for_each (pl_mul K l) _ r0) as [r1|] eqn:E1; [|discriminate]. cbn [obind] in E.
  match type of E with obind (for_each _ ?f _) _ = _ =>
    rewrite (for_each_ext' (pl_add K l) f (fun g res => let* x := (let* i0 := aget (pg_in K g) 0 in let* x := aget vals i0 in
      Some (x * pg_coef K g)) in bump K res (pg_out K g) x)) in E end.
  2:{ intros g s _. destruct (aget (pg_in K g) 0) as [i0|]; cbn [obind]; auto. destruct (aget vals i0); cbn [obind]; auto. }
  destruct (for_each (pl_add K l) _ r1) as [r2|] eqn:E2; [|discriminate]. cbn [obind] in E.
  destruct (for_each (pl_const K l) _ r2) as [r3|] eqn:E3; [|discriminate]. cbn [obind for_each] in E. injection E as <-.
  apply (bumps_weight _ (pg_out K) _ (fun g => nth (in0 K g) vals 0 * nth (in1 K g) vals 0 * pg_coef K g) w) in E1.
  2:{ intros g x _. unfold in0, in1. destruct (pg_in K g) as [|i0 [|i1 rest]]; cbn [aget nth_error obind nth]; try discriminate.
      { destruct (aget vals i0); discriminate. }
      destruct (aget vals i0) as [a|] eqn:Ea; [|discriminate]. destruct (aget vals i1) as [b|] eqn:Eb; [|discriminate].
      cbn [obind]. intros Ex. injection Ex as <-. unfold aget in Ea, Eb. now rewrite (nth_error_nth _ _ 0 Ea), (nth_error_nth _ _ 0 Eb). }
  apply (bumps_weight _ (pg_out K) _ (fun g => nth (in0 K g) vals 0 * pg_coef K g) w) in E2.
  2:{ intros g x _. unfold in0. destruct (pg_in K g) as [|i0 rest]; cbn [aget nth_error obind nth]; try discriminate.
      destruct (aget vals i0) as [a|] eqn:Ea; [|discriminate]. 
      cbn [obind]. intros Ex. injection Ex as <-. unfold aget in Ea. now rewrite (nth_error_nth _ _ 0 Ea). }
  apply (bumps_weight _ (pg_out K) _ (cst_val pub) w) in E3.
  2:{ intros g x _. unfold cst_val. destruct (pg_ctype K g) as [| |id]; try (intros Ex; now injection Ex as <-).
      intros Ex. unfold aget in Ex. now rewrite (nth_error_nth _ _ 0 Ex). }
  destruct E1 as (L1 & W1), E2 as (L2 & W2), E3 as (L3 & W3). rewrite L2, L1, L0 in W3. rewrite L1, L0 in W2. rewrite L0 in W1. split; [congruence|].
  rewrite W3, W2, W1. replace (sumn _ (fun i => nth i r0 0 * w i)) with (0 : K); [ring|].
  symmetry. apply sumn_zero. intros i _. unfold r0. rewrite nth_repeat. ring.
Qed.
End Proofs.
