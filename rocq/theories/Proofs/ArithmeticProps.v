(** Restatements of the gadget theorems in the form used by Properties/Arithmetic.v. *)
From Coq Require Import ZArith List Bool Znumtheory Lia.
From Verif Require Import Base.Pocklington Spec.Numbers Model.Builder Model.Gadgets Proofs.Builder
  Proofs.RangeCheck Proofs.Gadgets Proofs.Division Proofs.Rescale Proofs.RescaleArray.
Import ListNotations.
Local Open Scope Z_scope.

Definition divide p c (x d : Z) (s : nat) : prog Z :=
  div_const p c (enc p x) (const p d) d (const p (d * 2 ^ Z.of_nat s)) s (const p (2 ^ Z.of_nat s)).

Lemma is_pow2_pow k : is_pow2 (pow2 k) = true.
Proof.
  unfold is_pow2, pow2, zn. rewrite Z.log2_pow2 by lia. rewrite Z.eqb_refl, andb_true_r.
  apply Z.ltb_lt. apply Z.pow_pos_nonneg; lia.
Qed.

Lemma divide_pow2 p c k s x : (0 < k)%nat -> divide p c x (pow2 k) s = dp p c k s x true.
Proof.
  intros Hk. unfold divide, div_const.
  assert (H : 2 <= pow2 k).
  { change 2 with (pow2 1). apply pow2_le. lia. }
  destruct (Z.eqb_spec (pow2 k) 0); [lia|]. destruct (Z.eqb_spec (pow2 k) 1); [lia|].
  rewrite is_pow2_pow.
  replace (Z.to_nat (Z.log2 (pow2 k))) with k; [reflexivity|].
  unfold pow2, zn. rewrite Z.log2_pow2 by lia. now rewrite Nat2Z.id.
Qed.

Theorem division_pow2_values p c F k s x y :
  prime p -> (0 < c)%nat -> width_ok c k -> width_ok c (s + 1) ->
  pow2 k * pow2 (rounded c (s + 1)) + pow2 (rounded c k) <= p ->
  - (pow2 k * pow2 s) <= x < pow2 k * pow2 s ->
  accepts p (table_rows c F) (divide p c x (pow2 k) s) y <->
  exists j, 0 <= j < pow2 (rounded c k - k) /\
            x / pow2 k + j < pow2 s /\ y = enc p (x / pow2 k + j).
Proof.
  intros Hp Hc Hwk Hws Hbig Hx. assert (0 < k)%nat by (destruct Hwk; lia).
  rewrite divide_pow2 by auto.
  pose proof (pow2_pos k). pose proof (pow2_pos (rounded c k)). pose proof (pow2_pos (rounded c (s + 1))).
  apply (div_pow2_values p Hp c Hc F k s Hwk Hws); auto; nia.
Qed.

Theorem division_pow2_unique p c F k s x y :
  prime p -> (0 < c)%nat -> width_ok c k -> width_ok c (s + 1) ->
  pow2 k * pow2 (rounded c (s + 1)) + pow2 (rounded c k) <= p ->
  (k mod c = 0)%nat ->
  - (pow2 k * pow2 s) <= x < pow2 k * pow2 s ->
  accepts p (table_rows c F) (divide p c x (pow2 k) s) y <-> y = enc p (x / pow2 k).
Proof.
  intros Hp Hc Hwk Hws Hbig Hk Hx. assert (0 < k)%nat by (destruct Hwk; lia).
  rewrite divide_pow2 by auto.
  pose proof (pow2_pos k). pose proof (pow2_pos (rounded c k)). pose proof (pow2_pos (rounded c (s + 1))).
  apply (div_pow2_exact p Hp c Hc F k s Hwk Hws); auto; nia.
Qed.

Theorem division_pow2_run p c F k s x :
  prime p -> (0 < c)%nat -> width_ok c k -> width_ok c (s + 1) ->
  pow2 k * pow2 (rounded c (s + 1)) + pow2 (rounded c k) <= p ->
  - (pow2 k * pow2 s) <= x < pow2 k * pow2 s ->
  run honest_hint (table_rowsb c F) (divide p c x (pow2 k) s) = Some (enc p (x / pow2 k)).
Proof.
  intros Hp Hc Hwk Hws Hbig Hx. assert (0 < k)%nat by (destruct Hwk; lia).
  rewrite divide_pow2 by auto.
  pose proof (pow2_pos k). pose proof (pow2_pos (rounded c k)). pose proof (pow2_pos (rounded c (s + 1))).
  apply (div_pow2_run p Hp c Hc F k s Hwk Hws); auto; nia.
Qed.

Lemma pow2_default j : 0 <= j < 64 ->
  accepts bn254_r (table_rows 12 (fun _ => [])) (divide bn254_r 12 0 (2 ^ Z.of_nat 18) 63) (enc bn254_r j).
Proof.
  intros Hj. apply (division_pow2_values bn254_r 12 (fun _ => []) 18 63 0).
  - exact bn254_prime.
  - lia.
  - split; [lia|discriminate].
  - split; [lia|discriminate].
  - vm_compute; congruence.
  - vm_compute; split; congruence.
  - exists j. change (pow2 (rounded 12 18 - 18)) with 64. change (0 / pow2 18) with 0.
    change (pow2 63) with (2 ^ 63). repeat split; auto; lia.
Qed.

Lemma relu_is_max x : relu x = Z.max 0 x.
Proof. unfold relu. destruct (Z.leb_spec 0 x); lia. Qed.

Theorem relu_exact_max p c F s off x y :
  prime p -> (0 < c)%nat -> width_ok c (s + 1) -> ((s + 1) mod c = 0)%nat ->
  2 * pow2 (s + 1) <= p -> - pow2 (s + 1) < x < pow2 (s + 1) ->
  accepts p (table_rows c F) (constrained_relu p c s off (enc p x)) y <-> y = enc p (Z.max 0 x).
Proof. intros. rewrite <- relu_is_max. apply relu_exact; auto. Qed.

Lemma slack64 : slack 12 63 = 2 ^ 72 - 2 ^ 64.
Proof. vm_compute. reflexivity. Qed.

Lemma w64 : width_ok 12 (63 + 1).
Proof. split; [lia|discriminate]. Qed.
Lemma r64 : pow2 (rounded 12 (63 + 1)) <= bn254_r.
Proof. vm_compute; congruence. Qed.

Lemma relu_default :
  accepts bn254_r (table_rows 12 (fun _ => []))
    (constrained_relu bn254_r 12 63 (const bn254_r (2 ^ 63)) (enc bn254_r 5)) 0 /\
  accepts bn254_r (table_rows 12 (fun _ => []))
    (constrained_relu bn254_r 12 63 (const bn254_r (2 ^ 63)) (enc bn254_r (-5))) (enc bn254_r (-5)).
Proof.
  split; (apply (relu_free bn254_r bn254_prime 12 ltac:(lia) (fun _ => []) 63 w64 r64);
    [rewrite slack64; lia | change (pow2 (63 + 1)) with (2 ^ 64); lia | ]).
  - now left.
  - now right.
Qed.

Lemma max_default :
  accepts bn254_r (table_rows 12 (fun _ => []))
    (constrained_max bn254_r 12 63 (const bn254_r (2 ^ 63)) (map (enc bn254_r) [5; 3])) (enc bn254_r 3).
Proof.
  cbn [map constrained_max].
  apply (max2_free bn254_r bn254_prime 12 ltac:(lia) (fun _ => []) 63 w64 r64);
    [rewrite slack64; lia | change (pow2 (63 + 1)) with (2 ^ 64); lia | ].
  now left.
Qed.

Lemma min_default :
  accepts bn254_r (table_rows 12 (fun _ => []))
    (constrained_min bn254_r 12 63 (const bn254_r (2 ^ 63)) (map (enc bn254_r) [5; 3])) (enc bn254_r 5).
Proof.
  cbn [map constrained_min].
  apply (min2_free bn254_r bn254_prime 12 ltac:(lia) (fun _ => []) 63 w64 r64);
    [rewrite slack64; lia | change (pow2 (63 + 1)) with (2 ^ 64); lia | ].
  now right.
Qed.

Definition rescaled_max (k : nat) (r : bool) (x : Z) : Z :=
  if r then Z.max 0 (x / pow2 k) else x / pow2 k.

Lemma rescaled_eq k r x : rescaled k r x = rescaled_max k r x.
Proof. destruct r; cbn; auto. apply relu_is_max. Qed.

Theorem rescale_array_exact_max p c F k s r xs ys :
  prime p -> (0 < c)%nat -> (k < 32)%nat -> (s < 64)%nat -> width_ok c k -> width_ok c (s + 1) ->
  2 * (pow2 k * pow2 (rounded c (s + 1)) + pow2 (rounded c k)) <= p ->
  (k mod c = 0)%nat -> ((s + 1) mod c = 0)%nat ->
  Forall (fun x => - (pow2 k * pow2 s) <= x < pow2 k * pow2 s) xs ->
  accepts p (table_rows c F) (rescale_array p c (map (enc p) xs) k s r) ys <->
  ys = map (fun x => enc p (rescaled_max k r x)) xs.
Proof.
  intros Hp Hc Hk Hs Hwk Hws Hbig Hdk Hds Hxs.
  rewrite (rescale_array_exact p Hp c Hc F k s Hk Hs Hwk Hws Hbig Hdk Hds) by exact Hxs.
  rewrite map_map. assert (E : map (fun x => enc p (rescaled k r x)) xs = map (fun x => enc p (rescaled_max k r x)) xs).
  { apply map_ext. intros. now rewrite rescaled_eq. }
  rewrite E. reflexivity.
Qed.

Theorem rescale_array_run_max p c F k s r xs :
  prime p -> (0 < c)%nat -> (k < 32)%nat -> (s < 64)%nat -> width_ok c k -> width_ok c (s + 1) ->
  2 * (pow2 k * pow2 (rounded c (s + 1)) + pow2 (rounded c k)) <= p ->
  Forall (fun x => - (pow2 k * pow2 s) <= x < pow2 k * pow2 s) xs ->
  run honest_hint (table_rowsb c F) (rescale_array p c (map (enc p) xs) k s r) =
  Some (map (fun x => enc p (rescaled_max k r x)) xs).
Proof.
  intros Hp Hc Hk Hs Hwk Hws Hbig Hxs.
  rewrite (rescale_array_run p Hp c Hc F k s r xs Hk Hs Hwk Hws Hbig Hxs).
  f_equal. rewrite map_map. apply map_ext. intros. now rewrite rescaled_eq.
Qed.

Lemma rescale_default :
  accepts bn254_r (table_rows 12 (fun _ => [])) (rescale_array bn254_r 12 [enc bn254_r 0] 18 63 false)
    [enc bn254_r 63].
Proof.
  unfold rescale_array. rewrite (ctx_ok bn254_r 12 ltac:(lia) 18 63 ltac:(lia) ltac:(lia)). cbn [bind].
  apply accepts_mapM. constructor; [|constructor].
  unfold rescale. cbn [negb ctx rc_kappa rc_s rc_alpha rc_shift rc_scaled].
  apply accepts_bind. exists (enc bn254_r 63). split; [|apply accepts_ret; auto].
  pose proof (pow2_default 63 ltac:(lia)) as H. change (2 ^ Z.of_nat 18) with (pow2 18) in H.
  rewrite divide_pow2 in H by lia. exact H.
Qed.

Lemma shift_ctx_ok p s : (s < 64)%nat -> shift_ctx p s = Ret (const p (pow2 s)).
Proof.
  intros Hs. unfold shift_ctx. destruct (Nat.leb_spec 64 s); [lia|reflexivity].
Qed.

Theorem maybe_rescale_exact p c F k s is_rescale is_relu xs ys :
  prime p -> (0 < c)%nat -> (k < 32)%nat -> (s < 64)%nat -> width_ok c k -> width_ok c (s + 1) ->
  2 * (pow2 k * pow2 (rounded c (s + 1)) + pow2 (rounded c k)) <= p ->
  (k mod c = 0)%nat -> ((s + 1) mod c = 0)%nat ->
  Forall (layer_range k s is_rescale is_relu) xs ->
  accepts p (table_rows c F) (maybe_rescale p c (map (enc p) xs) is_rescale is_relu k (s + 1)) ys <->
  ys = map (fun x => enc p (layer_output k is_rescale is_relu x)) xs.
Proof.
  intros Hp Hc Hk Hs Hwk Hws Hbig Hdk Hds Hxs. unfold maybe_rescale.
  replace (s + 1 =? 0)%nat with false by (symmetry; apply Nat.eqb_neq; lia).
  rewrite Nat.add_sub. destruct is_rescale; cbn [negb].
  - rewrite rescale_array_exact_max by auto. reflexivity.
  - destruct is_relu.
    + unfold standalone_relu_array. rewrite shift_ctx_ok by auto. cbn [bind]. rewrite accepts_mapM.
      assert (P1 : 2 * pow2 (s + 1) <= p).
      { rewrite (rounded_exact c (s + 1) Hds) in Hbig. pose proof (pow2_pos k). pose proof (pow2_pos (rounded c k)).
        pose proof (pow2_pos (s + 1)). nia. }
      assert (E : forall x y, signed_fits s x ->
        accepts p (table_rows c F) (constrained_relu p c s (const p (pow2 s)) (enc p x)) y <-> y = enc p (Z.max 0 x)).
      { intros x y Hx. apply relu_exact_max; auto. unfold signed_fits in Hx. change (2 ^ Z.of_nat s) with (pow2 s) in Hx.
        rewrite (pw s). pose proof (pow2_pos s). lia. }
      split.
      * revert ys. induction Hxs as [|x xs Hx Hxs IH]; intros ys H; cbn [map] in *.
        -- inversion H; reflexivity.
        -- inversion H; subst. f_equal; [apply E; auto|apply IH; auto].
      * intros ->. induction Hxs as [|x xs Hx Hxs IH]; cbn [map]; constructor; auto.
        apply E; auto.
    + unfold layer_output. change (map (fun x => enc p x) xs) with (map (enc p) xs). cbn. split; congruence.
Qed.

Theorem maybe_rescale_run p c F k s is_rescale is_relu xs :
  prime p -> (0 < c)%nat -> (k < 32)%nat -> (s < 64)%nat -> width_ok c k -> width_ok c (s + 1) ->
  2 * (pow2 k * pow2 (rounded c (s + 1)) + pow2 (rounded c k)) <= p ->
  Forall (layer_range k s is_rescale is_relu) xs ->
  run honest_hint (table_rowsb c F) (maybe_rescale p c (map (enc p) xs) is_rescale is_relu k (s + 1)) =
  Some (map (fun x => enc p (layer_output k is_rescale is_relu x)) xs).
Proof.
  intros Hp Hc Hk Hs Hwk Hws Hbig Hxs. unfold maybe_rescale.
  replace (s + 1 =? 0)%nat with false by (symmetry; apply Nat.eqb_neq; lia).
  rewrite Nat.add_sub. destruct is_rescale; cbn [negb].
  - rewrite rescale_array_run_max by auto. reflexivity.
  - destruct is_relu; [|reflexivity].
    unfold standalone_relu_array. rewrite shift_ctx_ok by auto. cbn [bind].
    assert (PR : pow2 (rounded c (s + 1)) <= p /\ 2 * pow2 (s + 1) <= p).
    { pose proof (pow2_pos k). pose proof (pow2_pos (rounded c k)). pose proof (pow2_pos (rounded c (s + 1))).
      pose proof (pow2_pos (s + 1)). assert (pow2 (s + 1) <= pow2 (rounded c (s + 1))) by (apply pow2_le, rounded_ge). nia. }
    destruct PR as (P1 & P2).
    induction Hxs as [|x xs Hx Hxs IH]; [reflexivity|]. cbn [map mapM].
    rewrite run_bind. rewrite (relu_run p Hp c Hc F s Hws P1 P2 x Hx).
    rewrite run_bind, IH. cbn. unfold layer_output. now rewrite relu_is_max.
Qed.

Theorem maybe_rescale_zero_bits p c xs is_rescale is_relu k T ys : is_rescale || is_relu = true ->
  ~ accepts p T (maybe_rescale p c xs is_rescale is_relu k 0) ys.
Proof. unfold maybe_rescale. destruct is_rescale, is_relu; cbn; try discriminate; tauto. Qed.
