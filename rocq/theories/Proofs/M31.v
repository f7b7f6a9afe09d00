From Coq Require Import ZArith List Bool Lia Znumtheory Zpow_facts.
From Verif Require Import Base.Array Base.Machine Base.Pocklington Model.Fields.
Import ListNotations.
Local Open Scope Z_scope.

Lemma prime_151 : prime 151.
Proof. apply (trial_prime 15); [lia | vmr]. Qed.
Lemma prime_331 : prime 331.
Proof. apply (trial_prime 20); [lia | vmr]. Qed.
Lemma prime_M31 : prime M31.
Proof.
  apply (pocklington _ (151 ^ Z.of_nat 1 * 331 ^ Z.of_nat 1)); [reflexivity | reflexivity | vmc |].
  intros r Pr Hr.
  apply divide_mul_coprime; [apply Zgcd_1_rel_prime; vmr | |].
  { apply (pocklington_step M31 151 1 (2147483646 / 151) 7 535044134 r);
    [reflexivity | exact prime_151 | lia | vmc | vmr | | | vmr | assumption | assumption];
    apply pow_start; [reflexivity | vmc | vmr | reflexivity | vmc | vmr]. }
  apply (pocklington_step M31 331 1 (2147483646 / 331) 7 1761855083 r);
    [reflexivity | exact prime_331 | lia | vmc | vmr | | | vmr | assumption | assumption];
    apply pow_start; [reflexivity | vmc | vmr | reflexivity | vmc | vmr].
Qed.

Definition canon (v : Z) : Prop := 0 <= v < M31.

Lemma M31_val : M31 = 2147483647. Proof. reflexivity. Qed.
Lemma U32_val : U32 = 4294967296. Proof. reflexivity. Qed.
Lemma U64_val : U64 = 18446744073709551616. Proof. reflexivity. Qed.
Lemma U64_half : U64 / 2 = 9223372036854775808. Proof. reflexivity. Qed.
Lemma U64_mhalf : - U64 / 2 = -9223372036854775808. Proof. reflexivity. Qed.

Lemma land_M31 x : Z.land x M31 = x mod 2147483648.
Proof. change M31 with (Z.ones 31). rewrite Z.land_ones by lia. reflexivity. Qed.
Lemma shr31 x : Z.shiftr x 31 = x / 2147483648.
Proof. rewrite Z.shiftr_div_pow2 by lia. reflexivity. Qed.

Lemma mod_shift x y k : x = y + k * M31 -> x mod M31 = y mod M31.
Proof. intros ->. apply Z_mod_plus_full. Qed.

(** The partial reduction preserves the residue. *)
Lemma fold_mod x : (x mod 2147483648 + x / 2147483648) mod M31 = x mod M31.
Proof.
  apply mod_shift with (k := - (x / 2147483648)). pose proof (Z.div_mod x 2147483648 ltac:(lia)). rewrite M31_val. lia.
Qed.

Lemma reduce_u32_ok x : 0 <= x < U32 - 1 -> mod_reduce_u32_safe x = Some (x mod M31).
Proof.
  intros Hx. unfold mod_reduce_u32_safe. rewrite land_M31, shr31.
  pose proof (Z.div_mod x 2147483648 ltac:(lia)) as D. pose proof (Z.mod_pos_bound x 2147483648 ltac:(lia)) as B.
  rewrite U32_val in Hx. assert (Q : x / 2147483648 = 0 \/ x / 2147483648 = 1) by lia.
  rewrite unsigned_some by (rewrite U32_val; lia). cbn [obind]. f_equal.
  rewrite <- fold_mod. destruct (Z.eqb_spec (x mod 2147483648 + x / 2147483648) M31) as [->|N].
  - symmetry. apply Z_mod_same_full.
  - symmetry. apply Z.mod_small. rewrite M31_val in *. lia.
Qed.

Lemma reduce_canon v : canon v -> mod_reduce_u32_safe v = Some v.
Proof.
  intros Hv. rewrite reduce_u32_ok by (rewrite U32_val; unfold canon in Hv; rewrite M31_val in Hv; lia).
  f_equal. apply Z.mod_small. exact Hv.
Qed.

(** The one input for which the reduction is wrong. *)
Lemma reduce_u32_max : mod_reduce_u32_safe (U32 - 1) = Some (2 ^ 31).
Proof. reflexivity. Qed.

Lemma reduce_i64_ok x : 0 <= x < 2 ^ 62 -> exists r, mod_reduce_i64 x = Some r /\
  r mod M31 = x mod M31 /\ 0 <= r <= 2147483647 + x / 2147483648.
Proof.
  intros Hx. change (2 ^ 62) with 4611686018427387904 in Hx. unfold mod_reduce_i64. rewrite land_M31, shr31.
  pose proof (Z.div_mod x 2147483648 ltac:(lia)) as D. pose proof (Z.mod_pos_bound x 2147483648 ltac:(lia)) as B.
  eexists. split; [apply signed_some; rewrite U64_half, U64_mhalf; lia|]. split; [apply fold_mod|]. lia.
Qed.

Lemma add_ok a b : canon a -> canon b -> m31_add a b = Some ((a + b) mod M31).
Proof.
  unfold canon. rewrite M31_val. intros Ha Hb. unfold m31_add.
  rewrite unsigned_some by (rewrite U32_val; lia). cbn [obind].
  destruct (Z.leb_spec M31 (a + b)) as [L|L]; rewrite M31_val in *.
  - rewrite unsigned_some by (rewrite U32_val; lia). f_equal. apply Zmod_unique with (q := 1); lia.
  - f_equal. symmetry. apply Z.mod_small. lia.
Qed.

Lemma sub_ok a b : canon a -> canon b -> m31_sub a b = Some ((a - b) mod M31).
Proof.
  unfold canon. rewrite M31_val. intros Ha Hb. unfold m31_sub.
  rewrite unsigned_some by (rewrite U32_val, M31_val; lia). cbn [obind].
  rewrite unsigned_some by (rewrite U32_val, M31_val; lia). cbn [obind].
  destruct (Z.leb_spec M31 (a + M31 - b)) as [L|L]; rewrite M31_val in *.
  - rewrite unsigned_some by (rewrite U32_val; lia). f_equal. apply Zmod_unique with (q := 0); lia.
  - f_equal. apply Zmod_unique with (q := -1); lia.
Qed.

Lemma neg_ok a : canon a -> m31_neg a = Some ((- a) mod M31).
Proof.
  unfold canon. rewrite M31_val. intros Ha. unfold m31_neg. destruct (Z.eqb_spec a 0) as [->|N].
  - reflexivity.
  - rewrite unsigned_some by (rewrite U32_val, M31_val; lia). rewrite M31_val. f_equal. apply Zmod_unique with (q := -1); lia.
Qed.

Lemma mul_ok a b : canon a -> canon b -> m31_mul a b = Some ((a * b) mod M31).
Proof.
  unfold canon. rewrite M31_val. intros Ha Hb. unfold m31_mul.
  assert (B : 0 <= a * b <= 2147483646 * 2147483646) by nia.
  rewrite signed_some by (rewrite U64_half, U64_mhalf; lia). cbn [obind].
  destruct (reduce_i64_ok (a * b)) as (r & -> & Hm & Hr); [change (2 ^ 62) with 4611686018427387904; lia|]. cbn [obind].
  assert (Q : a * b / 2147483648 <= 2147483645) by (apply Z.div_le_upper_bound; lia).
  rewrite M31_val in Hm. rewrite <- Hm. destruct (Z.leb_spec M31 r) as [L|L]; rewrite M31_val in *.
  - rewrite signed_some by (rewrite U64_half, U64_mhalf; lia). cbn [obind]. f_equal.
    rewrite Z.mod_small by (rewrite U32_val; lia). apply Zmod_unique with (q := 1); lia.
  - cbn [obind]. f_equal. rewrite Z.mod_small by (rewrite U32_val; lia). symmetry. apply Z.mod_small. lia.
Qed.

Lemma mod_canon x : canon (x mod M31).
Proof. apply Z.mod_pos_bound. reflexivity. Qed.

Lemma from_u32_ok x : 0 <= x < U32 -> m31_from_u32 x = x mod M31.
Proof.
  intros Hx. unfold m31_from_u32. destruct (Z.ltb_spec x M31); auto. symmetry. apply Z.mod_small. lia.
Qed.

(** ** from_u256 *)
Lemma chunk_step acc chunk scale : 0 <= acc <= 2147483664 -> 0 <= chunk <= 2147483647 -> 0 <= scale <= 16 ->
  exists r, (let* t := signed U64 (chunk * scale) in let* s := signed U64 (acc + t) in mod_reduce_i64 s) = Some r /\
    0 <= r <= 2147483664 /\ exists k, r = acc + chunk * scale + k * M31.
Proof.
  intros Ha Hc Hs. assert (B : 0 <= chunk * scale <= 2147483647 * 16) by nia.
  rewrite signed_some by (rewrite U64_half, U64_mhalf; lia). cbn [obind].
  rewrite signed_some by (rewrite U64_half, U64_mhalf; lia). cbn [obind].
  set (x := acc + chunk * scale) in *.
  unfold mod_reduce_i64. rewrite land_M31, shr31.
  pose proof (Z.div_mod x 2147483648 ltac:(lia)) as D. pose proof (Z.mod_pos_bound x 2147483648 ltac:(lia)) as M.
  assert (Q : 0 <= x / 2147483648 <= 17) by lia.
  rewrite signed_some by (rewrite U64_half, U64_mhalf; lia).
  eexists. split; [reflexivity|]. split; [lia|]. exists (- (x / 2147483648)). rewrite M31_val. lia.
Qed.

Lemma chunk_val w s : 0 <= s -> Z.land (Z.shiftr w s) (2 ^ 31 - 1) = (w / 2 ^ s) mod 2147483648.
Proof.
  intros Hs. change (2 ^ 31 - 1) with (Z.ones 31). rewrite Z.land_ones, Z.shiftr_div_pow2 by lia. reflexivity.
Qed.

Lemma chunks_ok word scale acc : 0 <= word < U128 -> 0 <= scale <= 16 -> 0 <= acc <= 2147483664 ->
  exists r, m31_chunks word scale acc = Some r /\ 0 <= r <= 2147483664 /\ exists k, r = acc + word * scale + k * M31.
Proof.
  intros Hw Hs Ha. unfold m31_chunks. cbn [seq for_in].
  change (Z.of_nat 0 * 31) with 0. change (Z.of_nat 1 * 31) with 31. change (Z.of_nat 2 * 31) with 62.
  change (Z.of_nat 3 * 31) with 93. change (Z.of_nat 4 * 31) with 124.
  repeat match goal with |- context [?a <? 128] => change (a <? 128) with true end.
  change (0 + 31 <=? 128) with true. change (31 + 31 <=? 128) with true. change (62 + 31 <=? 128) with true.
  change (93 + 31 <=? 128) with true. change (124 + 31 <=? 128) with false. cbv iota.
  rewrite !chunk_val by lia.
  assert (E4 : Z.land (Z.shiftr word 124) (2 ^ (128 - 124) - 1) = word / 2 ^ 124).
  { change (2 ^ (128 - 124) - 1) with (Z.ones 4). rewrite Z.land_ones, Z.shiftr_div_pow2 by lia.
    apply Z.mod_small. split; [apply Z.div_pos; lia|]. apply Z.div_lt_upper_bound; [lia|].
    change (2 ^ 124 * 2 ^ 4) with U128. lia. }
  rewrite E4.
  set (B := 2147483648). 
  set (w0 := word / 2 ^ 0). set (w1 := word / 2 ^ 31). set (w2 := word / 2 ^ 62). set (w3 := word / 2 ^ 93). set (w4 := word / 2 ^ 124).
  assert (R0 : word = w0) by (unfold w0; rewrite Z.div_1_r; reflexivity).
  assert (D1 : w1 = w0 / B) by (rewrite <- R0; reflexivity).
  assert (D2 : w2 = w1 / B) by (unfold w1, w2, B; rewrite Z.div_div by lia; reflexivity).
  assert (D3 : w3 = w2 / B) by (unfold w3, w2, B; rewrite Z.div_div by lia; reflexivity).
  assert (D4 : w4 = w3 / B) by (unfold w4, w3, B; rewrite Z.div_div by lia; reflexivity).
  assert (R4 : 0 <= w4 <= 15).
  { unfold w4. split; [apply Z.div_pos; lia|]. assert (word / 2 ^ 124 < 16); [|lia].
    apply Z.div_lt_upper_bound; [lia|]. change (2 ^ 124 * 16) with U128. lia. }
  pose proof (Z.div_mod w0 B ltac:(unfold B; lia)) as M0. pose proof (Z.mod_pos_bound w0 B ltac:(unfold B; lia)) as N0.
  pose proof (Z.div_mod w1 B ltac:(unfold B; lia)) as M1. pose proof (Z.mod_pos_bound w1 B ltac:(unfold B; lia)) as N1.
  pose proof (Z.div_mod w2 B ltac:(unfold B; lia)) as M2. pose proof (Z.mod_pos_bound w2 B ltac:(unfold B; lia)) as N2.
  pose proof (Z.div_mod w3 B ltac:(unfold B; lia)) as M3. pose proof (Z.mod_pos_bound w3 B ltac:(unfold B; lia)) as N3.
  rewrite <- D1 in M0. rewrite <- D2 in M1. rewrite <- D3 in M2. rewrite <- D4 in M3.
  clearbody w0 w1 w2 w3 w4. clear D1 D2 D3 D4 E4.
  set (c0 := w0 mod B) in *. set (c1 := w1 mod B) in *. set (c2 := w2 mod B) in *. set (c3 := w3 mod B) in *.
  clearbody c0 c1 c2 c3. unfold B in *. clear B.
  destruct (chunk_step acc c0 scale Ha ltac:(lia) Hs) as (r0 & -> & B0 & k0 & K0). cbn [obind].
  destruct (chunk_step r0 c1 scale B0 ltac:(lia) Hs) as (r1 & -> & B1 & k1 & K1). cbn [obind].
  destruct (chunk_step r1 c2 scale B1 ltac:(lia) Hs) as (r2 & -> & B2 & k2 & K2). cbn [obind].
  destruct (chunk_step r2 c3 scale B2 ltac:(lia) Hs) as (r3 & -> & B3 & k3 & K3). cbn [obind].
  destruct (chunk_step r3 w4 scale B3 ltac:(lia) Hs) as (r4 & -> & B4 & k4 & K4). cbn [obind].
  exists r4. split; [reflexivity|]. split; [exact B4|].
  exists (k0 + k1 + k2 + k3 + k4 - scale * (w1 + w2 + w3 + w4)).
  assert (E : word = c0 + c1 + c2 + c3 + w4 + M31 * (w1 + w2 + w3 + w4)).
  { rewrite M31_val. lia. }
  rewrite K4, K3, K2, K1, K0, E. ring.
Qed.

Theorem from_u256_ok value : 0 <= value < 2 ^ 256 -> m31_from_u256 value = Some (value mod M31).
Proof.
  intros Hv. unfold m31_from_u256.
  assert (Hlo : 0 <= value mod U128 < U128) by (apply Z.mod_pos_bound; reflexivity).
  assert (Hhi : 0 <= value / U128 < U128).
  { split; [apply Z.div_pos; [lia|reflexivity]|]. apply Z.div_lt_upper_bound; [reflexivity|]. exact (proj2 Hv). }
  destruct (chunks_ok _ 1 0 Hlo ltac:(lia) ltac:(lia)) as (a & -> & Ba & ka & Ka). cbn [obind].
  destruct (chunks_ok _ 16 a Hhi ltac:(lia) Ba) as (b & -> & Bb & kb & Kb). cbn [obind].
  rewrite (Z.mod_small b) by (rewrite U32_val; lia).
  rewrite reduce_u32_ok by (rewrite U32_val; lia). f_equal.
  pose proof (Z.div_mod value U128 ltac:(discriminate)) as D.
  set (hi := value / U128) in *. set (lo := value mod U128) in *.
  assert (E : U128 = 16 + M31 * 158456325102315651516285845520) by reflexivity.
  apply mod_shift with (k := ka + kb - 158456325102315651516285845520 * hi).
  rewrite Kb, Ka, D, E. ring.
Qed.

(** ** Powers and inverse *)
Lemma pow_mod_mul a x y : 0 <= x -> 0 <= y -> ((a ^ x mod M31) * (a ^ y mod M31)) mod M31 = a ^ (x + y) mod M31.
Proof. intros Hx Hy. rewrite <- Zmult_mod, Z.pow_add_r by lia. reflexivity. Qed.

Lemma mul_pow a x y z : 0 <= x -> 0 <= y -> z = x + y -> m31_mul (a ^ x mod M31) (a ^ y mod M31) = Some (a ^ z mod M31).
Proof. intros Hx Hy ->. rewrite mul_ok by apply mod_canon. now rewrite pow_mod_mul. Qed.

Lemma exp_pow2_ok n : forall a x, 0 <= x -> m31_exp_power_of_2 n (a ^ x mod M31) = Some (a ^ (x * 2 ^ Z.of_nat n) mod M31).
Proof.
  induction n as [|n IH]; intros a x Hx; cbn [m31_exp_power_of_2].
  - now rewrite Z.mul_1_r.
  - unfold m31_square. rewrite (mul_pow a x x (2 * x)) by lia. cbn [obind]. rewrite IH by lia. f_equal. f_equal. f_equal.
    rewrite Nat2Z.inj_succ, Z.pow_succ_r by lia. ring.
Qed.

Lemma inv_chain a b z : b = a ^ 1 mod M31 -> m31_is_zero b = false -> z = 2147483645 ->
  m31_inv b = Some (Some (a ^ z mod M31)).
Proof.
  intros E Hz Ez. unfold m31_inv. rewrite Hz. clear Hz. rewrite E. clear E b.
  assert (L : forall n x z, 0 <= x -> z = x * 2 ^ Z.of_nat n ->
    m31_exp_power_of_2 n (a ^ x mod M31) = Some (a ^ z mod M31)) by (intros; subst; now apply exp_pow2_ok).
  cbv zeta. unfold m31_square.
  rewrite (L 2%nat 1 4); [|lia|reflexivity]. cbn [obind].
  rewrite (mul_pow a 4 1 5); [|lia..]. cbn [obind].
  rewrite (mul_pow a 5 5 10); [|lia..]. cbn [obind].
  rewrite (mul_pow a 10 5 15); [|lia..]. cbn [obind].
  rewrite (L 4%nat 15 240); [|lia|reflexivity]. cbn [obind].
  rewrite (mul_pow a 240 15 255); [|lia..]. cbn [obind].
  rewrite (L 4%nat 255 4080); [|lia|reflexivity]. cbn [obind].
  rewrite (mul_pow a 4080 15 4095); [|lia..]. cbn [obind].
  rewrite (L 4%nat 4080 65280); [|lia|reflexivity]. cbn [obind].
  rewrite (mul_pow a 65280 255 65535); [|lia..]. cbn [obind].
  rewrite (L 12%nat 65535 268431360); [|lia|reflexivity]. cbn [obind].
  rewrite (mul_pow a 268431360 4095 268435455); [|lia..]. cbn [obind].
  rewrite (L 3%nat 268435455 2147483640); [|lia|reflexivity]. cbn [obind].
  rewrite (mul_pow a 2147483640 5 z); [|lia..]. reflexivity.
Qed.

Lemma is_zero_ok a : canon a -> m31_is_zero a = (a =? 0).
Proof.
  intros Ha. unfold m31_is_zero. destruct (Z.eqb_spec a M31); [unfold canon in Ha; lia|]. apply orb_false_r.
Qed.

Lemma fermat_inv a z : canon a -> a <> 0 -> z = 2147483645 -> (a * (a ^ z mod M31)) mod M31 = 1.
Proof.
  intros Ha Hn Ez. rewrite Zmult_mod_idemp_r. rewrite <- Z.pow_succ_r by lia.
  replace (Z.succ z) with (M31 - 1) by (rewrite M31_val; lia). apply fermat; [exact prime_M31|].
  unfold canon in Ha. rewrite Z.mod_small by lia. exact Hn.
Qed.

Theorem inv_ok a : canon a ->
  (a = 0 -> m31_inv a = Some None) /\
  (a <> 0 -> exists y, m31_inv a = Some (Some y) /\ canon y /\ (a * y) mod M31 = 1).
Proof.
  intros Ha. split.
  - intros ->. reflexivity.
  - intros Hn. remember 2147483645 as z eqn:Ez. exists (a ^ z mod M31). split; [|split; [apply mod_canon|]].
    + apply inv_chain; auto.
      * rewrite Z.pow_1_r. symmetry. apply Z.mod_small. exact Ha.
      * rewrite is_zero_ok by auto. now apply Z.eqb_neq.
    + now apply fermat_inv.
Qed.

Lemma exp_loop_ok fuel : forall e a y z, 0 <= e < 2 ^ Z.of_nat fuel -> 0 <= y -> 0 <= z ->
  m31_exp_loop fuel e (a ^ y mod M31) (a ^ z mod M31) = Some (a ^ (y + e * z) mod M31).
Proof.
  induction fuel as [|f IH]; intros e a y z He Hy Hz; cbn [m31_exp_loop].
  - cbn in He. replace e with 0 by lia. cbn. f_equal. f_equal. f_equal. lia.
  - rewrite Nat2Z.inj_succ, Z.pow_succ_r in He by lia.
    destruct (Z.eqb_spec e 0) as [->|N]; [f_equal; f_equal; f_equal; lia|].
    pose proof (Z.div_mod e 2 ltac:(lia)) as D. rewrite Zmod_odd in D.
    assert (He2 : 0 <= e / 2 < 2 ^ Z.of_nat f) by (split; [apply Z.div_pos; lia|apply Z.div_lt_upper_bound; lia]).
    destruct (Z.odd e).
    + rewrite (mul_pow a y z (y + z)) by lia. cbn [obind]. rewrite (mul_pow a z z (2 * z)) by lia. cbn [obind].
      rewrite IH by lia. f_equal. f_equal. f_equal. nia.
    + cbn [obind]. rewrite (mul_pow a z z (2 * z)) by lia. cbn [obind].
      rewrite IH by lia. f_equal. f_equal. f_equal. nia.
Qed.

Theorem exp_ok a e : canon a -> 0 <= e < U128 -> m31_exp a e = Some (a ^ e mod M31).
Proof.
  intros Ha He. unfold m31_exp.
  replace 1 with (a ^ 0 mod M31) by reflexivity.
  replace a with (a ^ 1 mod M31) at 2 by (rewrite Z.pow_1_r; apply Z.mod_small; exact Ha).
  rewrite exp_loop_ok; [|exact He|lia|lia]. f_equal. f_equal. f_equal. lia.
Qed.

(** ** Serialisation and equality *)
Theorem serialize_ok v : canon v -> exists bs, m31_serialize v = Some bs /\ length bs = 4%nat /\
  forall rest, m31_deserialize (bs ++ rest) = Some (v, rest).
Proof.
  intros Hv. unfold m31_serialize. rewrite reduce_canon by auto. cbn [obind]. eexists. split; [reflexivity|].
  split; [apply le_bytes_length|]. intros rest. unfold m31_deserialize.
  rewrite app_length, le_bytes_length. cbn [Nat.add Nat.leb guard obind].
  rewrite firstn_app, le_bytes_length, Nat.sub_diag, firstn_O, app_nil_r, firstn_all2 by (rewrite le_bytes_length; lia).
  rewrite skipn_app, le_bytes_length, Nat.sub_diag, skipn_all2 by (rewrite le_bytes_length; lia). cbn [app skipn].
  rewrite le_val_id by (unfold canon in Hv; rewrite M31_val in Hv; cbn; lia).
  destruct (Z.leb_spec M31 v); [unfold canon in Hv; lia|reflexivity].
Qed.

Theorem deserialize_canon bs v rest : Forall is_byte bs -> m31_deserialize bs = Some (v, rest) ->
  canon v /\ bs = le_bytes 4 v ++ rest.
Proof.
  intros Hb. unfold m31_deserialize, guard. destruct (Nat.leb_spec 4 (length bs)); [|discriminate]. cbn [obind].
  destruct (Z.leb_spec M31 (le_val (firstn 4 bs))) as [|Hlt]; [discriminate|]. intros E. assert (EE : v = le_val (firstn 4 bs) /\ rest = skipn 4 bs) by (split; congruence). destruct EE as (-> & ->).
  assert (Hf : Forall is_byte (firstn 4 bs)).
  { rewrite <- (firstn_skipn 4 bs) in Hb. apply Forall_app in Hb. tauto. }
  split; [split; [apply (le_val_range _ Hf)|exact Hlt]|].
  assert (L : length (firstn 4 bs) = 4%nat) by (apply firstn_length_le; assumption).
  pose proof (le_bytes_val _ Hf) as V. rewrite L in V. rewrite V. symmetry. apply firstn_skipn.
Qed.

Lemma eq_ok a b : canon a -> canon b -> m31_eq a b = Some (a =? b).
Proof. intros Ha Hb. unfold m31_eq. rewrite !reduce_canon by auto. reflexivity. Qed.

(** ** Constructors *)
Theorem uniform_bytes_ok bs : Forall is_byte bs -> (4 <= length bs)%nat ->
  firstn 4 bs <> [255; 255; 255; 255] ->
  exists v, m31_from_uniform_bytes bs = Some v /\ canon v /\ v = le_val (firstn 4 bs) mod M31.
Proof.
  intros Hb Hl Hn. unfold m31_from_uniform_bytes. destruct (Nat.leb_spec 4 (length bs)); [|lia]. cbn [guard obind].
  assert (Hf : Forall is_byte (firstn 4 bs)).
  { rewrite <- (firstn_skipn 4 bs) in Hb. apply Forall_app in Hb. tauto. }
  assert (L : length (firstn 4 bs) = 4%nat) by (apply firstn_length_le; assumption).
  pose proof (le_val_range _ Hf) as R. rewrite L in R. change (256 ^ Z.of_nat 4) with U32 in R.
  exists (le_val (firstn 4 bs) mod M31). rewrite reduce_u32_ok; [split; [auto|split; [apply mod_canon|auto]]|].
  split; [lia|]. destruct (Z.eq_dec (le_val (firstn 4 bs)) (U32 - 1)) as [e|]; [|lia]. exfalso. apply Hn.
  apply le_val_inj; auto. repeat constructor; unfold is_byte; lia.
Qed.

Theorem uniform_bytes_bad rest : m31_from_uniform_bytes ([255; 255; 255; 255] ++ rest) = Some (2 ^ 31) /\
  m31_neg (2 ^ 31) = None /\ ~ canon (2 ^ 31).
Proof. split; [reflexivity|]. split; [reflexivity|]. unfold canon. rewrite M31_val. lia. Qed.

Theorem arithmetic_exact a b : canon a -> canon b ->
  m31_add a b = Some ((a + b) mod M31) /\ m31_sub a b = Some ((a - b) mod M31) /\
  m31_mul a b = Some ((a * b) mod M31) /\ m31_neg a = Some ((- a) mod M31) /\
  m31_double a = Some ((2 * a) mod M31) /\ m31_square a = Some (a ^ 2 mod M31) /\
  m31_mul_by_5 a = Some ((5 * a) mod M31) /\ m31_mul_by_6 a = Some ((6 * a) mod M31) /\
  m31_eq a b = Some (a =? b) /\ m31_is_zero a = (a =? 0).
Proof.
  intros Ha Hb. split; [apply add_ok; auto|]. split; [apply sub_ok; auto|]. split; [apply mul_ok; auto|].
  split; [apply neg_ok; auto|]. split; [|split; [|split; [|split; [|split]]]].
  - unfold m31_double. rewrite add_ok by auto. f_equal. f_equal. lia.
  - unfold m31_square. rewrite mul_ok by auto. rewrite Z.pow_2_r. reflexivity.
  - unfold m31_mul_by_5. rewrite mul_ok by (auto; unfold canon; rewrite M31_val; lia). rewrite Z.mul_comm. reflexivity.
  - unfold m31_mul_by_6. rewrite mul_ok by (auto; unfold canon; rewrite M31_val; lia). rewrite Z.mul_comm. reflexivity.
  - apply eq_ok; auto.
  - apply is_zero_ok; auto.
Qed.

Lemma from_u32_canon x : 0 <= x < U32 -> canon (m31_from_u32 x).
Proof. intros H. rewrite from_u32_ok by auto. apply mod_canon. Qed.

Theorem constructors_refuted :
  ~ (forall bs v, Forall is_byte bs -> m31_from_uniform_bytes bs = Some v -> canon v).
Proof.
  intros H. destruct (uniform_bytes_bad []) as (E & _ & N). apply N. apply (H _ _) in E; auto.
  repeat constructor; unfold is_byte; lia.
Qed.
