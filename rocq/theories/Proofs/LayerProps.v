From Coq Require Import ZArith List Bool Znumtheory Lia.
From Verif Require Import Base.Pocklington Spec.Numbers Spec.Matrix Model.Builder Model.Gadgets
  Model.Compare Model.Layers Model.Freivalds Proofs.Builder Proofs.RangeCheck Proofs.Gadgets Proofs.Division
  Proofs.Compare Proofs.Layers Proofs.Layers2 Proofs.ExpLookup Proofs.Freivalds.
Import ListNotations.
Local Open Scope Z_scope.

(** ** C12 *)
Lemma layers_honest p n Tb a b :
  prime p -> p <= 2 ^ Z.of_nat n -> length a = length b ->
  (forall v, In v a \/ In v b -> 0 <= v < p) ->
  run honest_hint Tb (greater_layer p n a b) =
    Some (map (fun ab => if snd ab <? fst ab then 1 else 0) (combine a b)) /\
  run honest_hint Tb (less_layer p n a b) =
    Some (map (fun ab => if fst ab <? snd ab then 1 else 0) (combine a b)).
Proof.
  intros Hp Hn _ Hv. split; apply run_mapM; intros [x y] Hxy; cbn [fst snd];
    pose proof (in_combine_l _ _ _ _ Hxy); pose proof (in_combine_r _ _ _ _ Hxy);
    apply gt_honest; auto.
Qed.

Lemma bn254_254 : bn254_r <= 2 ^ Z.of_nat 254.
Proof. vm_compute. discriminate. Qed.
Lemma gold_64 : goldilocks_p <= 2 ^ Z.of_nat 64.
Proof. vm_compute. discriminate. Qed.

Lemma greater_negative :
  run honest_hint (fun _ _ => false) (greater_layer bn254_r 254 [enc bn254_r (-1)] [enc bn254_r 0]) = Some [1] /\
  run honest_hint (fun _ _ => false) (greater_layer goldilocks_p 64 [enc goldilocks_p (-1)] [enc goldilocks_p 0]) = Some [1].
Proof.
  split.
  - destruct (layers_honest bn254_r 254 (fun _ _ => false) [enc bn254_r (-1)] [enc bn254_r 0] bn254_prime bn254_254 eq_refl)
      as (E & _); [|rewrite E; vm_compute; reflexivity].
    intros v [[<-|[]]|[<-|[]]]; apply enc_range; reflexivity.
  - destruct (layers_honest goldilocks_p 64 (fun _ _ => false) [enc goldilocks_p (-1)] [enc goldilocks_p 0]
      goldilocks_prime gold_64 eq_refl) as (E & _); [|rewrite E; vm_compute; reflexivity].
    intros v [[<-|[]]|[<-|[]]]; apply enc_range; reflexivity.
Qed.

Lemma greater_unsound T :
  accepts bn254_r T (greater_layer bn254_r 254 [0] [1]) [1] /\
  accepts goldilocks_p T (greater_layer goldilocks_p 64 [0] [1]) [1] /\
  accepts bn254_r T (less_layer bn254_r 254 [1] [0]) [1].
Proof.
  assert (B : accepts bn254_r T (gt bn254_r 254 0 1) 1).
  { apply (gt_ambiguous bn254_r bn254_prime T 254 0 1).
    - split; [discriminate|reflexivity].
    - split; [discriminate|reflexivity].
    - exact bn254_254.
    - reflexivity. }
  assert (G : accepts goldilocks_p T (gt goldilocks_p 64 0 1) 1).
  { apply (gt_ambiguous goldilocks_p goldilocks_prime T 64 0 1).
    - split; [discriminate|reflexivity].
    - split; [discriminate|reflexivity].
    - exact gold_64.
    - reflexivity. }
  repeat split; apply accepts_mapM; constructor; auto.
Qed.

Lemma compare_applies : goldilocks_p <= 2 ^ Z.of_nat 64 < 2 * goldilocks_p /\
  2 ^ Z.of_nat 64 - goldilocks_p <= 2 ^ 40 /\ 2 ^ 40 < goldilocks_p.
Proof. repeat split; try (vm_compute; discriminate); vm_compute; reflexivity. Qed.

(** ** C13 *)
Lemma topk_exact p c F s k scale lane V I :
  prime p -> (0 < c)%nat -> (0 < k)%nat -> (forall e, In e lane -> signed_fits s e) ->
  width_ok c (s + 2) -> ((s + 2) mod c = 0)%nat -> 2 * 2 ^ Z.of_nat (s + 2) <= p ->
  Z.of_nat (length lane) <= p -> width_ok c (topk_idx_bits (length lane)) ->
  2 ^ Z.of_nat (rounded c (topk_idx_bits (length lane))) <= p ->
  accepts p (table_rows c F) (topk_lane p c (s + 1) k scale (map (enc p) lane)) (V, I) <->
  exists vs is, V = map (enc p) vs /\ I = map Z.of_nat is /\ length vs = k /\ length is = k /\
    (forall j, (j < k)%nat -> (nth j is 0%nat < length lane)%nat /\ nth j vs 0 = nth (nth j is 0%nat) lane 0) /\
    (forall e, In e lane -> ~ In e vs -> e <= nth (k - 1) vs 0).
Proof.
  intros Hp Hc Hk Hf Hw He Hb Hd Hwi Hbi.
  assert (E2 : (s + 1 + 1 = s + 2)%nat) by lia.
  assert (Er : rounded c (s + 2) = (s + 2)%nat) by (apply rounded_exact; auto).
  assert (P2 : pow2 (s + 2) = 2 * pow2 (s + 1)) by (rewrite <- pow2_S; f_equal; lia).
  assert (P1 : pow2 (s + 1) = 2 * pow2 s) by (rewrite <- pow2_S; f_equal; lia).
  pose proof (pow2_pos s).
  rewrite (topk_lane_acc p Hp c Hc F (s + 1) k scale lane V I s); auto; try lia.
  2:{ rewrite E2; auto. }
  2:{ rewrite E2, Er. change (2 ^ Z.of_nat (s + 2)) with (pow2 (s + 2)) in Hb. lia. }
  unfold topk_ok. rewrite E2. split.
  - intros (vs & is & EV & EI & L1 & L2 & Hj & Hr). exists vs, is. repeat (split; [auto; fail|]).
    intros e He1 He2. specialize (Hr e He1 He2). apply (rci_exact c F) in Hr; auto. lia.
  - intros (vs & is & EV & EI & L1 & L2 & Hj & Hr). exists vs, is. repeat (split; [auto; fail|]).
    intros e He1 He2. specialize (Hr e He1 He2). apply (rci_exact c F); auto.
      assert (In (nth (k - 1) vs 0) lane).
      { destruct (Hj (k - 1)%nat ltac:(lia)) as (A & ->). apply nth_In. auto. }
      pose proof (Hf _ He1) as F1. pose proof (Hf _ H0) as F2. unfold signed_fits in F1, F2.
      change (2 ^ Z.of_nat s) with (pow2 s) in *. lia.
Qed.

Lemma top1_exact p c F s scale lane v i :
  prime p -> (0 < c)%nat -> (forall e, In e lane -> signed_fits s e) ->
  width_ok c (s + 2) -> ((s + 2) mod c = 0)%nat -> 2 * 2 ^ Z.of_nat (s + 2) <= p ->
  Z.of_nat (length lane) <= p -> width_ok c (topk_idx_bits (length lane)) ->
  2 ^ Z.of_nat (rounded c (topk_idx_bits (length lane))) <= p ->
  accepts p (table_rows c F) (topk_lane p c (s + 1) 1 scale (map (enc p) lane)) ([v], [i]) <->
  exists m j, v = enc p m /\ i = Z.of_nat j /\ is_max lane m /\ (j < length lane)%nat /\ nth j lane 0 = m.
Proof.
  intros Hp Hc Hf Hw He Hb Hd Hwi Hbi.
  rewrite (topk_exact p c F s 1 scale lane [v] [i]); auto. split.
  - intros (vs & is & EV & EI & L1 & L2 & Hj & Hr).
    destruct vs as [|m [|]]; try discriminate. destruct is as [|j [|]]; try discriminate.
    cbn in EV, EI. injection EV as ->. injection EI as ->. exists m, j.
    destruct (Hj 0%nat ltac:(lia)) as (A & B). cbn in A, B. repeat split; auto.
    + rewrite B. apply nth_In; auto.
    + intros x Hx. cbn in Hr. destruct (Z.eq_dec x m) as [->|N]; [lia|]. apply Hr; auto. intros [|[]]; congruence.
  - intros (m & j & -> & -> & (Hin & Hmax) & Hlt & En). exists [m], [j]. repeat split; auto.
    + destruct j0; [auto|lia].
    + destruct j0; [auto|lia].
Qed.

Lemma width_ok_12 n : (1 <= n <= 64)%nat -> width_ok 12 n.
Proof. intros. repeat split; try lia. Qed.

Lemma enc_small_list p l : (forall x, In x l -> 0 <= x < p) -> map (enc p) l = l.
Proof.
  intros H. rewrite <- (map_id l) at 2. apply map_ext_in. intros x Hx. apply enc_id. auto.
Qed.

Lemma topk_refuted F scale :
  accepts bn254_r (table_rows 12 F) (topk_lane bn254_r 12 35 2 scale [9; 5; 3]) ([3; 9], [2; 0]) /\
  accepts bn254_r (table_rows 12 F) (topk_lane bn254_r 12 35 2 scale [5; 3; 1]) ([5; 5], [0; 0]).
Proof.
  assert (G : forall lane vs is, length lane = 3%nat -> length vs = 2%nat -> length is = 2%nat ->
    (forall e, In e lane -> 0 <= e < 10) -> (forall e, In e vs -> 0 <= e < 10) ->
    (forall j, (j < 2)%nat -> (nth j is 0%nat < 3)%nat /\ nth j vs 0 = nth (nth j is 0%nat) lane 0) ->
    (forall e, In e lane -> ~ In e vs -> e <= nth 1 vs 0) ->
    accepts bn254_r (table_rows 12 F) (topk_lane bn254_r 12 35 2 scale lane) (vs, map Z.of_nat is)).
  { intros lane vs is L1 L2 L3 B1 B2 Hj Hr.
    assert (Big : 10 < bn254_r) by reflexivity.
    rewrite <- (enc_small_list bn254_r lane) by (intros x Hx; specialize (B1 x Hx); lia).
    change 35%nat with (34 + 1)%nat.
    apply (topk_exact bn254_r 12 F 34 2 scale lane vs (map Z.of_nat is) bn254_prime); try lia.
    - intros e He. specialize (B1 e He). unfold signed_fits.
      assert (10 < 2 ^ Z.of_nat 34) by reflexivity. lia.
    - apply width_ok_12. lia.
    - reflexivity.
    - vm_compute. discriminate.
    - rewrite L1. apply width_ok_12; split; apply Nat.leb_le; reflexivity.
    - rewrite L1. vm_compute. discriminate.
    - exists vs, is. rewrite L1. repeat split; auto.
      + symmetry. apply enc_small_list. intros x Hx. specialize (B2 x Hx). lia.
      + apply Hj; auto.
      + apply Hj; auto. }
  split.
  - apply (G [9; 5; 3] [3; 9] [2%nat; 0%nat]); try reflexivity; cbn.
    + intros e [<-|[<-|[<-|[]]]]; lia.
    + intros e [<-|[<-|[]]]; lia.
    + intros [|[|j]] Hj; cbn; try lia; split; auto; lia.
    + intros e [<-|[<-|[<-|[]]]] _; lia.
  - apply (G [5; 3; 1] [5; 5] [0%nat; 0%nat]); try reflexivity; cbn.
    + intros e [<-|[<-|[<-|[]]]]; lia.
    + intros e [<-|[<-|[]]]; lia.
    + intros [|[|j]] Hj; cbn; try lia; split; auto; lia.
    + intros e [<-|[<-|[<-|[]]]] _; lia.
Qed.

Lemma topk_default_refuted F scale :
  accepts bn254_r (table_rows 12 F) (topk_lane bn254_r 12 64 1 scale [5; 3]) ([3], [1]).
Proof.
  rewrite <- (enc_small_list bn254_r [5; 3]).
  2:{ intros x [<-|[<-|[]]]; split; try discriminate; reflexivity. }
  apply (topk_lane_acc bn254_r bn254_prime 12 ltac:(lia) F 64 1 scale [5; 3] [3] [1] 63).
  - lia.
  - reflexivity.
  - intros e [<-|[<-|[]]]; split; vm_compute; try discriminate; reflexivity.
  - repeat split; lia.
  - vm_compute. discriminate.
  - vm_compute. discriminate.
  - apply width_ok_12; split; apply Nat.leb_le; reflexivity.
  - vm_compute. discriminate.
  - exists [3], [1%nat]. repeat split; cbn; auto.
    + destruct j; cbn; lia.
    + destruct j; [auto|lia].
    + destruct H as [<-|[<-|[]]]; vm_compute; discriminate.
    + destruct H as [<-|[<-|[]]]; vm_compute; reflexivity.
Qed.

Lemma topk_applies : (forall e, In e [-7; 9; 5] -> signed_fits 34 e) /\ width_ok 12 (34 + 2) /\
  ((34 + 2) mod 12 = 0)%nat /\ 2 * 2 ^ Z.of_nat (34 + 2) <= goldilocks_p /\
  width_ok 12 (topk_idx_bits (length [-7; 9; 5])) /\
  2 ^ Z.of_nat (rounded 12 (topk_idx_bits (length [-7; 9; 5]))) <= goldilocks_p /\ is_max [-7; 9; 5] 9.
Proof.
  split; [intros e [<-|[<-|[<-|[]]]]; split; vm_compute; try discriminate; reflexivity|].
  split; [apply width_ok_12; lia|]. split; [reflexivity|]. split; [vm_compute; discriminate|].
  split; [apply width_ok_12; split; apply Nat.leb_le; reflexivity|]. split; [vm_compute; discriminate|].
  split; [right; left; reflexivity|]. intros x [<-|[<-|[<-|[]]]]; lia.
Qed.

(** ** C14 *)
Lemma exp_accepts p c tb E scale xf y :
  prime p -> (0 < c)%nat -> (2 <= tb)%nat ->
  width_ok c (tb / 2) -> width_ok c (bit_length scale) ->
  2 ^ Z.of_nat (rounded c (tb / 2)) <= p ->
  2 ^ Z.of_nat (rounded c (bit_length scale)) <= p -> 0 <= xf < p ->
  accepts p (table_rows c (exp_tables p tb E)) (verify_exp p c tb scale xf) y <->
  0 <= y < p /\ exists x r,
    - 2 ^ Z.of_nat (tb - 1) <= x < 2 ^ Z.of_nat (tb - 1) /\ xf = enc p x /\
    2 ^ Z.of_nat (bit_length scale) - 2 ^ Z.of_nat (rounded c (bit_length scale)) <= r
      < 2 ^ Z.of_nat (bit_length scale) /\
    enc p (y * scale + r) =
      enc p (E (x / 2 ^ Z.of_nat (tb / 2) * 2 ^ Z.of_nat (tb / 2)) * E (x mod 2 ^ Z.of_nat (tb / 2))).
Proof.
  intros Hp Hc Ht Hw1 Hw2 H2 H3 Hx.
  exact (verify_exp_acc p Hp c Hc tb E scale Ht Hw1 Hw2 H2 H3 xf y Hx).
Qed.

Lemma exp_refuted E :
  E 0 = 2 ^ 11 ->
  accepts bn254_r (table_rows 12 (exp_tables bn254_r 24 E)) (verify_exp bn254_r 12 24 (2 ^ 11) 0) (2 ^ 11) /\
  accepts bn254_r (table_rows 12 (exp_tables bn254_r 24 E)) (verify_exp bn254_r 12 24 (2 ^ 11) 0) (2 ^ 11 - 1).
Proof.
  intros HE.
  assert (G : forall y r, 0 <= y < 2 ^ 20 -> 0 <= r < 2 ^ 12 -> y * 2 ^ 11 + r = 2 ^ 11 * 2 ^ 11 ->
    accepts bn254_r (table_rows 12 (exp_tables bn254_r 24 E)) (verify_exp bn254_r 12 24 (2 ^ 11) 0) y).
  { intros y r Hy Hr Ey. assert (B : 2 ^ 20 < bn254_r) by reflexivity.
    apply (exp_accepts bn254_r 12 24 E (2 ^ 11) 0 y bn254_prime); try lia.
    - apply width_ok_12; split; apply Nat.leb_le; reflexivity.
    - apply width_ok_12; split; apply Nat.leb_le; reflexivity.
    - vm_compute. discriminate.
    - vm_compute. discriminate.
    - split; [lia|]. exists 0, r. split; [vm_compute; split; [discriminate|reflexivity]|].
      split; [reflexivity|]. split.
      + change (2 ^ Z.of_nat (bit_length (2 ^ 11))) with (2 ^ 12).
        change (2 ^ Z.of_nat (rounded 12 (bit_length (2 ^ 11)))) with (2 ^ 12). lia.
      + rewrite Ey. change (0 / 2 ^ Z.of_nat (24 / 2) * 2 ^ Z.of_nat (24 / 2)) with 0.
        change (0 mod 2 ^ Z.of_nat (24 / 2)) with 0. rewrite HE. reflexivity. }
  split; [apply (G _ 0)|apply (G _ (2 ^ 11))]; try reflexivity; split; try discriminate; reflexivity.
Qed.

(** ** C15 *)
Lemma pow_square_exact p c F kappa nb x y :
  prime p -> (0 < c)%nat -> (0 < kappa)%nat -> width_ok c kappa -> width_ok c nb ->
  (kappa mod c = 0)%nat -> (nb mod c = 0)%nat ->
  0 <= x -> x * x / 2 ^ Z.of_nat kappa < 2 ^ Z.of_nat nb ->
  x * x + 2 * 2 ^ Z.of_nat kappa + 2 ^ Z.of_nat kappa * 2 ^ Z.of_nat nb <= p ->
  accepts p (table_rows c F) (pow_element p c kappa nb (enc p x) 2) y <->
  y = x * x / 2 ^ Z.of_nat kappa \/
  (y = x * x / 2 ^ Z.of_nat kappa - 1 /\ 0 <= y /\
   (x * x) mod 2 ^ Z.of_nat kappa <= 2 ^ Z.of_nat kappa - 2).
Proof.
  intros Hp Hc Hk Hwk Hwn Ek En Hx Hq Hb. pose proof (prime_ge_2 _ Hp).
  change (2 ^ Z.of_nat kappa) with (pow2 kappa) in *. change (2 ^ Z.of_nat nb) with (pow2 nb) in *.
  pose proof (pow2_pos kappa). pose proof (pow2_pos nb).
  assert (Rk : rounded c kappa = kappa) by (apply rounded_exact; auto).
  assert (Rn : rounded c nb = nb) by (apply rounded_exact; auto).
  assert (Pn : pow2 nb <= p) by nia. assert (Pk : pow2 kappa < p) by nia.
  rewrite (pow_square p Hp c Hc F kappa nb); rewrite ?Rk, ?Rn; auto; try lia.
  pose proof (Z.div_mod (x * x) (pow2 kappa) ltac:(lia)) as D.
  pose proof (Z.mod_pos_bound (x * x) (pow2 kappa) ltac:(lia)) as M.
  assert (Q0 : 0 <= x * x / pow2 kappa) by (apply Z.div_pos; nia).
  set (q := x * x / pow2 kappa) in *. set (m := (x * x) mod pow2 kappa) in *.
  assert (2 <= pow2 kappa) by (destruct kappa; [lia|]; rewrite pow2_S; pose proof (pow2_pos kappa); lia).
  split.
  - intros (Y & r1 & r2 & -> & HY & R1 & R2 & E). apply (rci_exact c F) in HY; auto. apply (rci_exact c F) in R1; auto. apply (rci_exact c F) in R2; auto.
    rewrite (enc_id p Y) by lia.
    assert (Hd : Y = q \/ Y = q - 1) by (assert (q - 2 < Y < q + 1) by nia; lia).
    destruct Hd as [->| ->]; [left; auto|]. right. split; auto. split; [lia|]. nia.
  - intros [->|(-> & Hy & Hm)].
    + exists q, m, 0. rewrite (enc_id p q) by lia. split; auto.
      rewrite !(rci_exact c F) by auto. repeat split; try lia.
    + exists (q - 1), (m + 1), (pow2 kappa - 1). rewrite (enc_id p (q - 1)) by lia. split; auto.
      rewrite !(rci_exact c F) by auto. repeat split; try lia.
Qed.

Lemma pow_applies : width_ok 12 12 /\ width_ok 12 24 /\ (24 mod 12 = 0)%nat /\
  5000 * 5000 / 2 ^ Z.of_nat 12 = 6103 /\ 6103 < 2 ^ Z.of_nat 24 /\
  5000 * 5000 + 2 * 2 ^ Z.of_nat 12 + 2 ^ Z.of_nat 12 * 2 ^ Z.of_nat 24 <= goldilocks_p.
Proof.
  split; [apply width_ok_12; lia|]. split; [apply width_ok_12; lia|].
  repeat split; vm_compute; discriminate || reflexivity.
Qed.

(** ** C16 *)
Lemma avgpool_close p c F nb xs y :
  prime p -> (0 < c)%nat -> (2 <= length xs)%nat -> width_ok c nb -> width_ok c (ceil_log2 (length xs)) ->
  2 * Z.of_nat (length xs) * 2 ^ Z.of_nat (rounded c nb) + 2 * Z.of_nat (length xs) +
    2 ^ Z.of_nat (rounded c (ceil_log2 (length xs))) <= p ->
  (forall x, In x xs -> 0 <= x < 2 ^ Z.of_nat nb) ->
  accepts p (table_rows c F) (avgpool_window p c nb (map (enc p) xs)) y ->
  exists Y, y = enc p Y /\ - Z.of_nat (length xs) < zsum xs - Z.of_nat (length xs) * Y + Z.of_nat (length xs) / 2
    < 2 * Z.of_nat (length xs).
Proof.
  intros Hp Hc Hn Hw Hk Hb Hx H.
  apply (avg_window_acc p Hp c Hc F nb xs Hn Hw Hk Hb Hx) in H. destruct H as (Y & -> & HY & H1 & H2).
  exists Y. split; auto. destruct (k_bound c Hc xs Hn) as (K1 & K2). unfold rci, avg_res in *. lia.
Qed.

Lemma avgpool_refuted F :
  accepts bn254_r (table_rows 12 F) (avgpool_window bn254_r 12 64 (repeat 1 9)) 1 /\
  accepts bn254_r (table_rows 12 F) (avgpool_window bn254_r 12 64 (repeat 1 9)) 0 /\
  accepts bn254_r (table_rows 12 F) (avgpool_window bn254_r 12 64 (repeat 1 9)) 2.
Proof.
  assert (G : forall Y, 0 <= Y <= 2 -> accepts bn254_r (table_rows 12 F) (avgpool_window bn254_r 12 64 (repeat 1 9)) Y).
  { intros Y HY. assert (B : 10 < bn254_r) by reflexivity.
    rewrite <- (enc_small_list bn254_r (repeat 1 9)) by (intros x Hx; apply repeat_spec in Hx; lia).
    apply (avgpool_slack bn254_r bn254_prime 12 ltac:(lia) F 64 (repeat 1 9)).
    - cbn. lia.
    - apply width_ok_12. lia.
    - apply width_ok_12; split; apply Nat.leb_le; reflexivity.
    - vm_compute. discriminate.
    - intros x Hx. apply repeat_spec in Hx. subst. split; [lia|reflexivity].
    - cbn. discriminate.
    - exists Y. split; [symmetry; apply enc_id; lia|]. split.
      + unfold rci. assert (2 < pow2 64) by reflexivity. assert (pow2 64 - pow2 (rounded 12 64) <= 0) by (vm_compute; discriminate). lia.
      + change (zsum (repeat 1 9)) with 9. change (Z.of_nat (length (repeat 1 9))) with 9.
        change (pow2 (ceil_log2 (length (repeat 1 9)))) with 16. change (9 / 2) with 4. lia. }
  repeat split; apply G; lia.
Qed.

Lemma reduce_mean_refuted F :
  accepts bn254_r (table_rows 12 F) (reduce_mean_out bn254_r 12 64 4 (repeat 0 4)) 1000 /\
  accepts bn254_r (table_rows 1 F) (reduce_mean_out bn254_r 1 64 1 [7]) 7 /\
  accepts bn254_r (table_rows 1 F) (reduce_mean_out bn254_r 1 64 1 [7]) 6.
Proof.
  split.
  - change (repeat 0 4) with (map (enc bn254_r) (repeat 0 4)).
    apply (reduce_mean_acc bn254_r bn254_prime 12 ltac:(lia) F 64 (repeat 0 4)).
    + cbn; lia.
    + lia.
    + apply width_ok_12. lia.
    + apply width_ok_12; split; apply Nat.leb_le; reflexivity.
    + vm_compute. discriminate.
    + intros x Hx. apply repeat_spec in Hx. subst. split; [vm_compute; discriminate|reflexivity].
    + exists 1000. split; [reflexivity|]. split; [split; [vm_compute; discriminate|reflexivity]|].
      split; [split; [vm_compute; discriminate|reflexivity]|]. intros E. discriminate E.
  - assert (G : forall Y, 6 <= Y <= 7 -> accepts bn254_r (table_rows 1 F) (reduce_mean_out bn254_r 1 64 1 [7]) Y).
    { intros Y HY. assert (B : 10 < bn254_r) by reflexivity.
      change [7] with (map (enc bn254_r) [7]).
      apply (reduce_mean_acc bn254_r bn254_prime 1 ltac:(lia) F 64 [7]).
      - cbn; lia.
      - lia.
      - repeat split; lia.
      - repeat split; vm_compute; lia.
      - vm_compute. discriminate.
      - intros x [<-|[]]. split; [vm_compute; discriminate|reflexivity].
      - exists Y. split; [symmetry; apply enc_id; lia|]. split.
        + unfold rci. change (pow2 64 - pow2 (rounded 1 64)) with 0. change (pow2 (64 - 1)) with (2 ^ 63).
          change (pow2 64) with (2 ^ 64). lia.
        + split; [|intros E; discriminate E]. unfold rci, mean_res. change (zsum [7]) with 7.
          change (Z.of_nat (length [7])) with 1. change (pow2 (reduce_mean_bits (length [7]))) with 2.
          change (pow2 (rounded 1 (reduce_mean_bits (length [7])))) with 2. change (1 / 2) with 0. lia. }
    split; apply G; lia.
Qed.

Lemma reduce_mean_incomplete :
  run honest_hint (table_rowsb 12 (fun _ => [])) (reduce_mean_out bn254_r 12 64 2 (map (enc bn254_r) [-3; -5])) = None /\
  mean_round [-3; -5] = -4.
Proof. split; vm_compute; reflexivity. Qed.

Lemma avg_applies : width_ok 12 64 /\ width_ok 12 (ceil_log2 (length (repeat 1 4))) /\
  2 * Z.of_nat (length (repeat 1 4)) * 2 ^ Z.of_nat (rounded 12 64) + 2 * Z.of_nat (length (repeat 1 4)) +
    2 ^ Z.of_nat (rounded 12 (ceil_log2 (length (repeat 1 4)))) <= bn254_r /\
  Z.of_nat (length (repeat 1 4)) = 2 ^ Z.of_nat (ceil_log2 (length (repeat 1 4))) /\ mean_round [3; 5; 7; 8] = 6 /\
  width_ok 2 64 /\ width_ok 2 (reduce_mean_bits 4) /\ (reduce_mean_bits 4 mod 2 = 0)%nat /\
  mean_round [-3; -5; -7; 0] = -4.
Proof.
  split; [apply width_ok_12; lia|]. split; [apply width_ok_12; split; apply Nat.leb_le; reflexivity|].
  split; [vm_compute; discriminate|]. split; [reflexivity|]. split; [reflexivity|].
  split; [repeat split; lia|]. split; [repeat split; vm_compute; lia|]. split; reflexivity.
Qed.

(** ** C18 *)
Lemma freivalds_applies : is_matrix 7 2 2 [[1; 2]; [3; 4]] /\ is_matrix 7 2 1 [[5]; [6]] /\ is_matrix 7 2 1 [[3]; [4]] /\
  is_product 7 2 2 1 [[1; 2]; [3; 4]] [[5]; [6]] [[3]; [4]] /\
  ~ is_product 7 2 2 1 [[1; 2]; [3; 4]] [[5]; [6]] [[3]; [5]].
Proof.
  split; [|split; [|split; [|split]]].
  - split; [reflexivity|]. intros r [<-|[<-|[]]]; (split; [reflexivity|]); intros v [<-|[<-|[]]]; lia.
  - split; [reflexivity|]. intros r [<-|[<-|[]]]; (split; [reflexivity|]); intros v [<-|[]]; lia.
  - split; [reflexivity|]. intros r [<-|[<-|[]]]; (split; [reflexivity|]); intros v [<-|[]]; lia.
  - intros [|[|i]] [|j] Hi Hj; try lia; reflexivity.
  - intros H. specialize (H 1%nat 0%nat ltac:(lia) ltac:(lia)). vm_compute in H. discriminate.
Qed.
