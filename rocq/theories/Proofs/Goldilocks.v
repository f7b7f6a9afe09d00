From Coq Require Import ZArith List Bool Lia Znumtheory Zpow_facts.
From Verif Require Import Base.Array Base.Machine Base.Pocklington Model.Fields.
Import ListNotations.
Local Open Scope Z_scope.

Definition word (v : Z) : Prop := 0 <= v < U64.

Lemma GL_val : GL = 18446744069414584321. Proof. reflexivity. Qed.
Lemma EPS_val : EPSILON = 4294967295. Proof. reflexivity. Qed.
Lemma U64_v : U64 = 18446744073709551616. Proof. reflexivity. Qed.
Lemma U128_v : U128 = 340282366920938463463374607431768211456. Proof. reflexivity. Qed.
Ltac nums := unfold word in *; rewrite ?GL_val, ?EPS_val, ?U64_v, ?U128_v in *.

Lemma gmod_shift x y k : x = y + k * GL -> x mod GL = y mod GL.
Proof. intros ->. apply Z_mod_plus_full. Qed.

Lemma wrap0 x : 0 <= x < U64 -> x mod U64 = x.
Proof. intros. apply Z.mod_small; auto. Qed.
Lemma wrap1 x : U64 <= x < 2 * U64 -> x mod U64 = x - U64.
Proof. intros. symmetry. apply Zmod_unique with (q := 1); lia. Qed.
Lemma wrapm x : - U64 <= x < 0 -> x mod U64 = x + U64.
Proof. intros. symmetry. apply Zmod_unique with (q := -1); lia. Qed.

Lemma reduce64_ok x : word x -> mod_reduce_u64 x = x mod GL.
Proof.
  intros H. unfold mod_reduce_u64. destruct (Z.leb_spec GL x).
  - apply Zmod_unique with (q := 1); nums; lia.
  - symmetry. apply Z.mod_small. nums; lia.
Qed.

Lemma gadd_ok a b : word a -> word b ->
  exists r, gl_add a b = Some r /\ word r /\ r mod GL = (a + b) mod GL.
Proof.
  intros Ha Hb. unfold gl_add, overflowing_add.
  destruct (Z.leb_spec U64 (a + b)) as [L|L]; cbn [b2e].
  - rewrite (wrap1 (a + b)) by (nums; lia).
    destruct (Z.leb_spec U64 (a + b - U64 + EPSILON)) as [L2|L2].
    + rewrite wrap1 by (nums; lia).
      destruct (Z.ltb_spec GL a); [|nums; lia]. destruct (Z.ltb_spec GL b); [|nums; lia]. cbn [andb guard obind].
      rewrite unsigned_some by (nums; lia). eexists. split; [reflexivity|]. split; [nums; lia|].
      apply gmod_shift with (k := -2). nums; lia.
    + rewrite wrap0 by (nums; lia). eexists. split; [reflexivity|]. split; [nums; lia|].
      apply gmod_shift with (k := -1). nums; lia.
  - rewrite (wrap0 (a + b)) by (nums; lia). rewrite Z.add_0_r.
    destruct (Z.leb_spec U64 (a + b)) as [L2|L2]; [lia|]. rewrite wrap0 by (nums; lia).
    eexists. split; [reflexivity|]. split; [nums; lia|reflexivity].
Qed.

Lemma gsub_ok a b : word a -> word b ->
  exists r, gl_sub a b = Some r /\ word r /\ r mod GL = (a - b) mod GL.
Proof.
  intros Ha Hb. unfold gl_sub, overflowing_sub.
  destruct (Z.ltb_spec (a - b) 0) as [L|L]; cbn [b2e].
  - rewrite (wrapm (a - b)) by (nums; lia).
    destruct (Z.ltb_spec (a - b + U64 - EPSILON) 0) as [L2|L2].
    + rewrite wrapm by (nums; lia).
      destruct (Z.ltb_spec a (EPSILON - 1)); [|nums; lia]. destruct (Z.ltb_spec GL b); [|nums; lia]. cbn [andb guard obind].
      rewrite unsigned_some by (nums; lia). eexists. split; [reflexivity|]. split; [nums; lia|].
      apply gmod_shift with (k := 2). nums; lia.
    + rewrite wrap0 by (nums; lia). eexists. split; [reflexivity|]. split; [nums; lia|].
      apply gmod_shift with (k := 1). nums; lia.
  - rewrite (wrap0 (a - b)) by (nums; lia). rewrite Z.sub_0_r.
    destruct (Z.ltb_spec (a - b) 0) as [L2|L2]; [lia|]. rewrite wrap0 by (nums; lia).
    eexists. split; [reflexivity|]. split; [nums; lia|reflexivity].
Qed.

Lemma gneg_ok a : word a -> exists r, gl_neg a = Some r /\ word r /\ r mod GL = (- a) mod GL.
Proof. intros H. apply (gsub_ok 0 a); auto. nums; lia. Qed.

Lemma add_nc_ok x y : word x -> 0 <= y <= 18446744065119617025 ->
  exists r, add_no_canonicalize x y = Some r /\ word r /\ r mod GL = (x + y) mod GL.
Proof.
  intros Hx Hy. unfold add_no_canonicalize, overflowing_add. cbv zeta.
  destruct (Z.leb_spec U64 (x + y)) as [L|L]; cbn [b2e].
  - rewrite wrap1 by (nums; lia).
    destruct (Z.eqb_spec x 0); [nums; lia|]. destruct (Z.eqb_spec y 0); [nums; lia|]. cbn [negb orb guard obind].
    rewrite unsigned_some by (nums; lia). eexists. split; [reflexivity|]. split; [nums; lia|].
    apply gmod_shift with (k := -1). nums; lia.
  - rewrite wrap0 by (nums; lia).
    replace (negb (x =? 0) || (x + y =? y) && (0 =? 0)) with true
      by (destruct (Z.eqb_spec x 0), (Z.eqb_spec (x + y) y); auto; lia).
    replace (negb (y =? 0) || (x + y =? x) && (0 =? 0)) with true
      by (destruct (Z.eqb_spec y 0), (Z.eqb_spec (x + y) x); auto; lia).
    cbn [guard obind]. rewrite unsigned_some by (nums; lia). eexists. split; [reflexivity|]. split; [nums; lia|].
    f_equal. lia.
Qed.

Lemma reduce128_ok x : 0 <= x < U128 -> exists r, reduce128 x = Some r /\ word r /\ r mod GL = x mod GL.
Proof.
  intros Hx. unfold reduce128. cbv zeta.
  pose proof (Z.div_mod x U64 ltac:(rewrite U64_v; lia)) as D1. pose proof (Z.mod_pos_bound x U64 ltac:(rewrite U64_v; lia)) as B1.
  assert (B2 : 0 <= x / U64 < U64) by (split; [apply Z.div_pos; nums; lia | apply Z.div_lt_upper_bound; nums; lia]).
  rewrite (wrap0 (x / U64)) by exact B2.
  rewrite Z.shiftr_div_pow2 by lia. change EPSILON with (Z.ones 32). rewrite Z.land_ones by lia.
  change (Z.ones 32) with 4294967295. change (2 ^ 32) with 4294967296.
  set (lo := x mod U64) in *. set (hi := x / U64) in *.
  pose proof (Z.div_mod hi 4294967296 ltac:(lia)) as D2. pose proof (Z.mod_pos_bound hi 4294967296 ltac:(lia)) as B3.
  assert (B4 : 0 <= hi / 4294967296 < 4294967296) by (split; [apply Z.div_pos; lia | apply Z.div_lt_upper_bound; nums; lia]).
  set (hh := hi / 4294967296) in *. set (hl := hi mod 4294967296) in *.
  unfold overflowing_sub.
  assert (T0 : exists t0, (if lo - hh <? 0 then unsigned U64 ((lo - hh) mod U64 - 4294967295) else Some ((lo - hh) mod U64)) = Some t0 /\
    word t0 /\ t0 mod GL = (lo - hh) mod GL).
  { destruct (Z.ltb_spec (lo - hh) 0).
    - rewrite wrapm by (nums; lia). rewrite unsigned_some by (nums; lia). eexists. split; [reflexivity|]. split; [nums; lia|].
      apply gmod_shift with (k := 1). nums; lia.
    - rewrite wrap0 by (nums; lia). eexists. split; [reflexivity|]. split; [nums; lia|reflexivity]. }
  destruct T0 as (t0 & -> & Ht0 & M0). cbn [obind].
  rewrite unsigned_some by (nums; nia). cbn [obind].
  destruct (add_nc_ok t0 (hl * 4294967295) Ht0 ltac:(nia)) as (r & -> & Hr & M1). exists r. split; [reflexivity|]. split; [exact Hr|].
  rewrite M1. rewrite <- Z.add_mod_idemp_l by (rewrite GL_val; lia). rewrite M0, Z.add_mod_idemp_l by (rewrite GL_val; lia).
  symmetry. apply gmod_shift with (k := hl + hh * 4294967297). rewrite D1. subst hi. nums. lia.
Qed.

Lemma gmul_ok a b : word a -> word b -> exists r, gl_mul a b = Some r /\ word r /\ r mod GL = (a * b) mod GL.
Proof.
  intros Ha Hb. unfold gl_mul. assert (B : 0 <= a * b < U128) by (nums; nia).
  rewrite unsigned_some by exact B. cbn [obind]. apply reduce128_ok; exact B.
Qed.

Lemma gcanon x : 0 <= x mod GL < GL.
Proof. apply Z.mod_pos_bound. reflexivity. Qed.

Lemma geq_ok a b : word a -> word b -> gl_eq a b = true <-> a mod GL = b mod GL.
Proof. intros Ha Hb. unfold gl_eq. rewrite !reduce64_ok by auto. apply Z.eqb_eq. Qed.

Lemma gis_zero_ok a : word a -> gl_is_zero a = true <-> a mod GL = 0.
Proof.
  intros Ha. unfold gl_is_zero. rewrite orb_true_iff, !Z.eqb_eq. rewrite <- reduce64_ok by auto.
  unfold mod_reduce_u64. destruct (Z.leb_spec GL a); nums; lia.
Qed.

Lemma gfrom_u256_ok v : 0 <= v -> gl_from_u256 v = v mod GL.
Proof.
  intros _. unfold gl_from_u256. pose proof (gcanon v) as B.
  rewrite (Z.mod_small (v mod GL) U128) by (nums; lia). rewrite wrap0 by (nums; lia).
  rewrite reduce64_ok by (nums; lia). apply Z.mod_mod. rewrite GL_val; lia.
Qed.

Lemma gserialize_ok v rest : word v -> gl_deserialize (gl_serialize v ++ rest) = Some (v mod GL, rest).
Proof.
  intros Hv. unfold gl_deserialize, gl_serialize. rewrite reduce64_ok by auto.
  pose proof (gcanon v) as B.
  rewrite app_length, le_bytes_length. cbn [Nat.add Nat.leb guard obind].
  rewrite firstn_app, le_bytes_length, Nat.sub_diag, firstn_O, app_nil_r, firstn_all2 by (rewrite le_bytes_length; lia).
  rewrite skipn_app, le_bytes_length, Nat.sub_diag, skipn_all2 by (rewrite le_bytes_length; lia). cbn [app skipn].
  rewrite le_val_id by (change (256 ^ Z.of_nat 8) with 18446744073709551616; nums; lia).
  cbv zeta. destruct (Z.leb_spec GL (v mod GL)); [lia|]. reflexivity.
Qed.

Lemma gdeserialize_canon bs v rest : Forall is_byte bs -> gl_deserialize bs = Some (v, rest) ->
  0 <= v < GL /\ bs = gl_serialize v ++ rest.
Proof.
  intros Hb. unfold gl_deserialize. destruct (8 <=? length bs)%nat eqn:L; [|discriminate]. cbn [guard obind]. cbv zeta.
  apply Nat.leb_le in L. destruct (Z.leb_spec GL (le_val (firstn 8 bs))) as [|K]; [discriminate|].
  intros E. assert (EE : v = le_val (firstn 8 bs) /\ rest = skipn 8 bs) by (split; congruence). destruct EE as (-> & ->).
  assert (F : Forall is_byte (firstn 8 bs)).
  { apply Forall_forall. intros b Ib. apply (proj1 (Forall_forall _ _) Hb). rewrite <- (firstn_skipn 8 bs). apply in_or_app. auto. }
  pose proof (le_val_range _ F) as R.
  assert (V : le_bytes 8 (le_val (firstn 8 bs)) = firstn 8 bs).
  { rewrite <- (firstn_length_le bs L) at 1. apply le_bytes_val. exact F. }
  split; [lia|]. unfold gl_serialize. rewrite reduce64_ok by (nums; lia). rewrite (Z.mod_small _ GL) by lia.
  rewrite V. symmetry. apply firstn_skipn.
Qed.

Lemma guniform_ok bs : Forall is_byte bs -> (8 <= length bs)%nat ->
  gl_from_uniform_bytes bs = Some (le_val (firstn 8 bs) mod GL).
Proof.
  intros Hb L. unfold gl_from_uniform_bytes. rewrite (proj2 (Nat.leb_le _ _) L). cbn [guard obind]. f_equal.
  apply reduce64_ok. assert (F : Forall is_byte (firstn 8 bs)).
  { apply Forall_forall. intros b Ib. apply (proj1 (Forall_forall _ _) Hb). rewrite <- (firstn_skipn 8 bs). apply in_or_app. auto. }
  pose proof (le_val_range _ F) as R. rewrite firstn_length_le in R by exact L.
  change (256 ^ Z.of_nat 8) with 18446744073709551616 in R. nums. lia.
Qed.

(** ** Inverses of powers of two *)
Lemma half_ok e : 0 <= e <= 32 ->
  unsigned U64 (GL - Z.shiftr (GL - 1) e) = Some (GL - (GL - 1) / 2 ^ e) /\
  word (GL - (GL - 1) / 2 ^ e) /\ ((GL - (GL - 1) / 2 ^ e) * 2 ^ e) mod GL = 1.
Proof.
  intros He. rewrite Z.shiftr_div_pow2 by lia. pose proof (Z.pow_pos_nonneg 2 e ltac:(lia) ltac:(lia)) as P.
  assert (E : GL - 1 = 2 ^ e * (2 ^ (32 - e) * 4294967295)).
  { rewrite Z.mul_assoc, <- Z.pow_add_r by lia. replace (e + (32 - e)) with 32 by lia. reflexivity. }
  assert (Q : (GL - 1) / 2 ^ e = 2 ^ (32 - e) * 4294967295) by (rewrite E, Z.mul_comm; apply Z.div_mul; lia).
  assert (B : 0 < (GL - 1) / 2 ^ e <= GL - 1).
  { split; [apply Z.div_str_pos; split; [lia|] | apply Z.div_le_upper_bound; nums; nia].
    rewrite E. pose proof (Z.pow_pos_nonneg 2 (32 - e) ltac:(lia) ltac:(lia)). nia. }
  split; [apply unsigned_some; nums; lia|]. split; [nums; lia|].
  rewrite Q in *. set (q := 2 ^ (32 - e) * 4294967295) in *.
  replace ((GL - q) * 2 ^ e) with (1 + (2 ^ e - 1) * GL) by (rewrite Z.mul_sub_distr_r; nia).
  rewrite Z_mod_plus_full. reflexivity.
Qed.

Lemma inv32 : (INV_2_32 * 2 ^ 32) mod GL = 1. Proof. reflexivity. Qed.

Lemma mul_inv_step r a x b y : r mod GL = (a * b) mod GL -> (a * x) mod GL = 1 -> (b * y) mod GL = 1 ->
  (r * (x * y)) mod GL = 1.
Proof.
  intros E Ha Hb. rewrite Z.mul_mod, E, <- Z.mul_mod by (rewrite GL_val; lia).
  replace (a * b * (x * y)) with ((a * x) * (b * y)) by ring.
  rewrite Z.mul_mod, Ha, Hb by (rewrite GL_val; lia). reflexivity.
Qed.

Lemma inv2_loop_ok fuel : forall res e q, word res -> 0 <= q -> (res * 2 ^ q) mod GL = 1 -> 0 <= e <= Z.of_nat fuel ->
  exists res' e', inverse_2exp_loop fuel res e = Some (res', e') /\ word res' /\ 0 <= e' <= 32 /\ e' <= e /\
    (res' * 2 ^ (q + e - e')) mod GL = 1.
Proof.
  induction fuel as [|n IH]; intros res e q Hr Hq Hm He; cbn [inverse_2exp_loop].
  - destruct (Z.ltb_spec 32 e); [lia|]. exists res, e. split; [reflexivity|]. split; [auto|]. split; [lia|]. split; [lia|].
    replace (q + e - e) with q by lia. exact Hm.
  - destruct (Z.ltb_spec 32 e) as [L|L].
    + destruct (gmul_ok res INV_2_32 Hr ltac:(unfold INV_2_32; nums; lia)) as (r & -> & Hw & Em). cbn [obind].
      destruct (IH r (e - 32) (q + 32) Hw ltac:(lia)) as (r' & e' & E & Hw' & He' & Hle & Hm').
      * rewrite Z.pow_add_r by lia. eapply mul_inv_step; eauto using inv32.
      * lia.
      * exists r', e'. split; [exact E|]. split; [auto|]. split; [auto|]. split; [lia|].
        replace (q + e - e') with (q + 32 + (e - 32) - e') by lia. exact Hm'.
    + exists res, e. split; [reflexivity|]. split; [auto|]. split; [lia|]. split; [lia|].
      replace (q + e - e) with q by lia. exact Hm.
Qed.

Lemma inverse_2exp_ok e : 0 <= e -> exists r, inverse_2exp e = Some r /\ word r /\ (r * 2 ^ e) mod GL = 1.
Proof.
  intros He. unfold inverse_2exp. destruct (Z.ltb_spec 32 e) as [L|L].
  - destruct (inv2_loop_ok (Z.to_nat e) INV_2_32 (e - 32) 32 ltac:(unfold INV_2_32; nums; lia) ltac:(lia) inv32 ltac:(lia))
      as (r & e' & -> & Hw & He' & Hle & Hm). cbn [obind].
    destruct (half_ok e' He') as (-> & Hh & Hi). cbn [obind].
    destruct (gmul_ok r _ Hw Hh) as (r2 & -> & Hw2 & E2). exists r2. split; [reflexivity|]. split; [auto|].
    replace (2 ^ e) with (2 ^ (32 + (e - 32) - e') * 2 ^ e') by (rewrite <- Z.pow_add_r by lia; f_equal; lia).
    eapply mul_inv_step; eauto.
  - destruct (half_ok e ltac:(lia)) as (E & Hh & Hi). eauto.
Qed.

Lemma inverse_2exp_canon e r : 0 <= e < 160 -> inverse_2exp e = Some r -> 0 <= r < GL.
Proof.
  intros He E.
  assert (C : forallb (fun n => match inverse_2exp (Z.of_nat n) with Some r => (0 <=? r) && (r <? GL) | None => false end) (seq 0 160) = true)
    by (vm_compute; reflexivity).
  rewrite forallb_forall in C. specialize (C (Z.to_nat e) ltac:(apply in_seq; lia)).
  rewrite Z2Nat.id, E in C by lia. apply andb_true_iff in C. destruct C as (C1 & C2).
  apply Z.leb_le in C1. apply Z.ltb_lt in C2. lia.
Qed.

(** ** The inversion loop, c and d unbounded *)
Lemma ctz_ok h : 0 < h -> 0 <= ctz h /\ exists m, h = m * 2 ^ ctz h /\ Z.odd m = true /\ 0 < m.
Proof.
  destruct h as [|q|q]; try lia. intros _. cbn [ctz].
  induction q as [q IH|q IH|]; cbn [pos_ctz].
  - split; [lia|]. exists (Zpos (xI q)). rewrite Z.mul_1_r. repeat split; auto.
  - destruct IH as (P & m & E & O & M). split; [lia|]. exists m. rewrite Z.pow_add_r by lia. change (2 ^ 1) with 2. split; [lia|auto].
  - split; [lia|]. exists 1. repeat split; auto.
Qed.

Lemma odd_mod4 x : Z.odd x = true -> x mod 4 = 1 \/ x mod 4 = 3.
Proof.
  intros H. apply Z.odd_spec in H. destruct H as (j & ->). pose proof (Z.mod_pos_bound (2 * j + 1) 4 ltac:(lia)).
  pose proof (Z.div_mod (2 * j + 1) 4 ltac:(lia)). lia.
Qed.

Lemma land3 x : Z.land x 3 = x mod 4.
Proof. change 3 with (Z.ones 2). apply Z.land_ones. lia. Qed.

Lemma ctz_ge2 h : 0 < h -> h mod 4 = 0 -> 2 <= ctz h.
Proof.
  intros Hp H4. destruct (ctz_ok h Hp) as (P & m & E & O & M).
  destruct (Z_lt_ge_dec (ctz h) 2) as [L|]; [|lia]. exfalso.
  apply odd_mod4 in O. pose proof (Z.div_mod m 4 ltac:(lia)). pose proof (Z.div_mod h 4 ltac:(lia)).
  assert (C : ctz h = 0 \/ ctz h = 1) by lia. destruct C as [C|C]; rewrite C in E;
    [change (2 ^ 0) with 1 in E | change (2 ^ 1) with 2 in E]; lia.
Qed.

Lemma ctz_bound h n : 0 < h -> 0 <= n -> h < 2 ^ n -> ctz h < n.
Proof.
  intros Hp Hn Hb. destruct (ctz_ok h Hp) as (P & m & E & O & M).
  apply (Z.pow_lt_mono_r_iff 2); [lia|lia|]. pose proof (Z.pow_pos_nonneg 2 (ctz h) ltac:(lia) P). nia.
Qed.

Definition good (x : Z) (s : inv_state) : Prop :=
  Z.odd (i_f s) = true /\ Z.odd (i_g s) = true /\ 0 < i_f s < U64 /\ 0 < i_g s < U64 /\
  Z.gcd (i_f s) (i_g s) = 1 /\ 0 <= i_k s /\
  (GL | i_c s * x - i_f s * 2 ^ i_k s) /\ (GL | i_d s * x - i_g s * 2 ^ i_k s).

Lemma swap_good x s : good x s -> good x (inv_swap s) /\ i_g (inv_swap s) <= i_f (inv_swap s) /\
  i_k (inv_swap s) = i_k s /\ i_f (inv_swap s) = Z.max (i_f s) (i_g s) /\ i_g (inv_swap s) = Z.min (i_f s) (i_g s).
Proof.
  intros (Of & Og & Bf & Bg & G & K & C & D). unfold inv_swap. destruct (Z.ltb_spec (i_f s) (i_g s)) as [L|L].
  - split; [|cbn; lia]. unfold good; cbn [i_f i_g i_c i_d i_k]. rewrite Z.gcd_comm. tauto.
  - split; [|lia]. unfold good; tauto.
Qed.

(** One step on an ordered state: [h] is f - g or f + g, [sg] the sign. *)
Lemma step_good x s sg h : good x s -> (sg = 1 \/ sg = -1) -> h = i_f s + sg * i_g s -> 0 < h -> h mod 4 = 0 ->
  i_g s <= i_f s ->
  let kk := ctz h in
  let f := Z.shiftr h kk in
  good x {| i_f := f; i_g := i_g s; i_c := i_c s + sg * i_d s; i_d := i_d s * 2 ^ kk; i_k := i_k s + kk |} /\
  2 * f <= i_f s /\ h = f * 2 ^ kk /\ 2 <= kk.
Proof.
  intros (Of & Og & Bf & Bg & G & K & C & D) Hs Hh Hp H4 Hle kk f.
  pose proof (ctz_ge2 h Hp H4) as K2. fold kk in K2.
  destruct (ctz_ok h Hp) as (P & m & E & O & M). fold kk in E, P.
  pose proof (Z.pow_pos_nonneg 2 kk ltac:(lia) P) as PP.
  assert (Ef : f = m) by (unfold f; rewrite Z.shiftr_div_pow2 by lia; rewrite E at 1; apply Z.div_mul; lia).
  assert (K4 : 4 <= 2 ^ kk) by (change 4 with (2 ^ 2); apply Z.pow_le_mono_r; lia).
  assert (Bm : 2 * f <= i_f s) by nia.
  split; [|split; [exact Bm|split; [rewrite Ef; exact E|exact K2]]].
  unfold good; cbn [i_f i_g i_c i_d i_k]. split; [rewrite Ef; exact O|]. split; [exact Og|]. split; [lia|]. split; [exact Bg|].
  split; [|split; [lia|split]].
  - apply Zgcd_1_rel_prime. apply rel_prime_sym.
    assert (R : rel_prime (i_g s) h).
    { apply rel_prime_sym. apply Zgcd_1_rel_prime. rewrite Hh. rewrite Z.gcd_comm.
      replace (i_f s + sg * i_g s) with (i_f s + sg * i_g s) by ring. rewrite Z.gcd_add_mult_diag_r. rewrite Z.gcd_comm. exact G. }
    rewrite Ef. apply rel_prime_sym. apply (rel_prime_div h).
    + apply rel_prime_sym. exact R.
    + exists (2 ^ kk). rewrite E at 1. ring.
  - rewrite Z.pow_add_r by lia.
    replace ((i_c s + sg * i_d s) * x - f * (2 ^ i_k s * 2 ^ kk))
      with ((i_c s * x - i_f s * 2 ^ i_k s) + sg * (i_d s * x - i_g s * 2 ^ i_k s)).
    + apply Z.divide_add_r; [exact C|]. apply Z.divide_mul_r. exact D.
    + rewrite Ef. replace (m * (2 ^ i_k s * 2 ^ kk)) with (h * 2 ^ i_k s) by (rewrite E at 1; ring). rewrite Hh. ring.
  - rewrite Z.pow_add_r by lia.
    replace (i_d s * 2 ^ kk * x - i_g s * (2 ^ i_k s * 2 ^ kk)) with (2 ^ kk * (i_d s * x - i_g s * 2 ^ i_k s)) by ring.
    apply Z.divide_mul_r. exact D.
Qed.

Lemma same_mod4 f g : Z.odd f = true -> Z.odd g = true ->
  (f mod 4 = g mod 4 -> (f - g) mod 4 = 0) /\ (f mod 4 <> g mod 4 -> (f + g) mod 4 = 0 /\ f / 4 + g / 4 + 1 = (f + g) / 4).
Proof.
  intros Of Og. apply odd_mod4 in Of. apply odd_mod4 in Og.
  pose proof (Z.div_mod f 4 ltac:(lia)). pose proof (Z.div_mod g 4 ltac:(lia)). split; intros E.
  - symmetry. apply Zmod_unique with (q := f / 4 - g / 4); lia.
  - split; [symmetry; apply Zmod_unique with (q := f / 4 + g / 4 + 1) | apply Zdiv_unique with (r := 0)]; lia.
Qed.

Lemma gcd_neq f g : Z.gcd f g = 1 -> 0 < f -> 0 < g -> ~ (f = 1 /\ g = 1) -> f <> g.
Proof. intros G Hf Hg N E. subst g. rewrite Z.gcd_diag_nonneg in G by lia. lia. Qed.

Lemma ctz_shift h : 0 < h -> h mod 4 = 0 -> ctz h = ctz (h / 4) + 2.
Proof.
  intros Hp H4. pose proof (Z.div_mod h 4 ltac:(lia)) as E. rewrite H4, Z.add_0_r in E.
  assert (Hq : 0 < h / 4) by lia. destruct (h / 4) as [|q|q] eqn:Q; try lia. subst h.
  change (4 * Z.pos q) with (Z.pos (q~0~0)). cbn [ctz pos_ctz]. lia.
Qed.

Lemma safe_ok x s : good x s -> i_f s <> 1 -> exists s', safe_iteration Some s = Some s' /\ good x s' /\
  2 * i_f s' <= Z.max (i_f s) (i_g s) /\ i_g s' = Z.min (i_f s) (i_g s) /\ i_k s' <= i_k s + 64 /\
  (i_c s' = i_c (inv_swap s) - i_d (inv_swap s) \/ i_c s' = i_c (inv_swap s) + i_d (inv_swap s)).
Proof.
  intros Gd N. destruct (swap_good x s Gd) as (Gw & Le & Kw & Fw & Gw').
  unfold safe_iteration. cbv zeta. set (w := inv_swap s) in *.
  pose proof Gw as (Of & Og & Bf & Bg & G & K & C & D).
  assert (Nn : i_f w <> i_g w).
  { apply (gcd_neq _ _ G); lia. }
  rewrite !land3. destruct (same_mod4 _ _ Of Og) as (S1 & S2).
  destruct (Z.eqb_spec (i_f w mod 4) (i_g w mod 4)) as [E|E].
  - rewrite unsigned_some by (nums; lia). cbn [obind].
    destruct (step_good x w (-1) (i_f w - i_g w) Gw (or_intror eq_refl) ltac:(lia) ltac:(lia) (S1 E) Le) as (G' & Hf & Eh & K2).
    cbv zeta in G', Hf, Eh, K2.
    eexists. split; [reflexivity|]. cbn [i_f i_g i_c i_d i_k].
    replace (i_c w - i_d w) with (i_c w + -1 * i_d w) by ring.
    split; [exact G'|]. split; [lia|]. split; [lia|]. split; [|left; reflexivity].
    pose proof (ctz_bound (i_f w - i_g w) 64 ltac:(lia) ltac:(lia) ltac:(change (2 ^ 64) with U64; lia)). lia.
  - destruct (S2 E) as (H4 & Q). rewrite !Z.shiftr_div_pow2 by lia. change (2 ^ 2) with 4. rewrite Q.
    assert (Hp : 0 < i_f w + i_g w) by lia.
    assert (Hq : 0 <= (i_f w + i_g w) / 4 < U64) by (split; [apply Z.div_pos; lia | apply Z.div_lt_upper_bound; lia]).
    rewrite unsigned_some by exact Hq. cbn [obind].
    destruct (step_good x w 1 (i_f w + i_g w) Gw (or_introl eq_refl) ltac:(lia) ltac:(lia) H4 Le) as (G' & Hf & Eh & K2).
    cbv zeta in G', Hf, Eh, K2. pose proof (ctz_shift _ Hp H4) as Cz.
    assert (Sh : Z.shiftr ((i_f w + i_g w) / 4) (ctz ((i_f w + i_g w) / 4)) = Z.shiftr (i_f w + i_g w) (ctz (i_f w + i_g w))).
    { rewrite Cz. pose proof (ctz_ok ((i_f w + i_g w) / 4)) as Cq.
      assert (0 <= ctz ((i_f w + i_g w) / 4)) by lia.
      rewrite !Z.shiftr_div_pow2 by lia. rewrite (Z.add_comm (ctz _) 2), Z.pow_add_r by lia. change (2 ^ 2) with 4.
      rewrite Z.div_div by lia. reflexivity. }
    rewrite Sh, <- Cz. eexists. split; [reflexivity|]. cbn [i_f i_g i_c i_d i_k].
    replace (i_c w + i_d w) with (i_c w + 1 * i_d w) by ring.
    split; [exact G'|]. split; [lia|]. split; [lia|]. split; [|right; lia].
    pose proof (ctz_bound (i_f w + i_g w) 65 ltac:(lia) ltac:(lia) ltac:(change (2 ^ 65) with (2 * U64); lia)). lia.
Qed.

Definition small63 (s : inv_state) : Prop := i_f s <= U64 / 2 - 1 /\ i_g s <= U64 / 2 - 1.

Lemma unsafe_ok x s : good x s -> i_f s <> 1 -> small63 s -> exists s', unsafe_iteration Some s = Some s' /\ good x s' /\
  2 * i_f s' <= Z.max (i_f s) (i_g s) /\ i_g s' = Z.min (i_f s) (i_g s).
Proof.
  intros Gd N (S63f & S63g). destruct (swap_good x s Gd) as (Gw & Le & Kw & Fw & Gw').
  unfold unsafe_iteration. cbv zeta. set (w := inv_swap s) in *.
  pose proof Gw as (Of & Og & Bf & Bg & G & K & C & D).
  assert (Nn : i_f w <> i_g w).
  { apply (gcd_neq _ _ G); lia. }
  rewrite !land3. destruct (same_mod4 _ _ Of Og) as (S1 & S2).
  change (U64 / 2) with 9223372036854775808 in *.
  destruct (Z.eqb_spec (i_f w mod 4) (i_g w mod 4)) as [E|E].
  - rewrite unsigned_some by (nums; lia). cbn [obind].
    destruct (step_good x w (-1) (i_f w - i_g w) Gw (or_intror eq_refl) ltac:(lia) ltac:(lia) (S1 E) Le) as (G' & Hf & Eh & K2).
    cbv zeta in G', Hf, Eh, K2.
    eexists. split; [reflexivity|]. cbn [i_f i_g i_c i_d i_k].
    replace (i_c w - i_d w) with (i_c w + -1 * i_d w) by ring.
    split; [exact G'|]. split; lia.
  - destruct (S2 E) as (H4 & Q). rewrite unsigned_some by (nums; lia). cbn [obind].
    destruct (step_good x w 1 (i_f w + i_g w) Gw (or_introl eq_refl) ltac:(lia) ltac:(lia) H4 Le) as (G' & Hf & Eh & K2).
    cbv zeta in G', Hf, Eh, K2.
    eexists. split; [reflexivity|]. cbn [i_f i_g i_c i_d i_k].
    replace (i_c w + i_d w) with (i_c w + 1 * i_d w) by ring.
    split; [exact G'|]. split; lia.
Qed.

Lemma log2_half a b : 0 < a -> 2 * a <= b -> Z.log2 a + 1 <= Z.log2 b.
Proof. intros Ha H. change (Z.log2 a + 1) with (Z.succ (Z.log2 a)). rewrite <- Z.log2_double by lia. apply Z.log2_le_mono. lia. Qed.

Lemma loop_ok x fuel : forall s, good x s -> small63 s -> Z.log2 (i_f s) + Z.log2 (i_g s) <= Z.of_nat fuel ->
  exists s', inv_loop Some fuel s = Some s' /\ good x s' /\ i_f s' = 1.
Proof.
  induction fuel as [|n IH]; intros s Gd S63 M; cbn [inv_loop].
  - destruct Gd as (Of & Og & Bf & Bg & R). pose proof (Z.log2_nonneg (i_f s)). pose proof (Z.log2_nonneg (i_g s)).
    assert (Z.log2 (i_f s) = 0) by lia. assert (F1 : i_f s = 1) by (apply Z.log2_null in H1; lia).
    rewrite F1. cbn. exists s. split; [reflexivity|]. unfold good; rewrite F1 in *; auto 10.
  - destruct (Z.eqb_spec (i_f s) 1) as [E|E]; [eauto|].
    destruct (unsafe_ok x s Gd E S63) as (s' & -> & G' & Hf & Hg). cbn [obind].
    pose proof G' as (_ & _ & Bf' & Bg' & _). pose proof Gd as (_ & _ & Bf & Bg & _).
    pose proof (log2_half _ _ (proj1 Bf') Hf) as L.
    apply IH; [exact G'| |].
    + unfold small63 in *. change (U64 / 2) with 9223372036854775808 in *. lia.
    + rewrite Hg. destruct (Z.max_spec (i_f s) (i_g s)) as [(? & Em)|(? & Em)]; rewrite Em in L.
      * rewrite Z.min_l by lia. lia.
      * rewrite Z.min_r by lia. lia.
Qed.

Lemma divide_mod x y : (GL | x - y) -> x mod GL = y mod GL.
Proof. intros (q & E). apply gmod_shift with (k := q). lia. Qed.

Lemma GL_prime : prime GL.
Proof. exact goldilocks_prime. Qed.

Theorem inverse_ok x : word x -> x mod GL <> 0 ->
  exists r, try_inverse_u64 Some x = Some (Some r) /\ word r /\ (x * r) mod GL = 1.
Proof.
  intros Hx N. unfold try_inverse_u64.
  assert (Z0 : (x =? 0) || (x =? GL) = false).
  { destruct (gl_is_zero x) eqn:E; [|exact E]. apply gis_zero_ok in E; auto. lia. }
  rewrite Z0. cbv zeta. apply orb_false_iff in Z0. destruct Z0 as (N0 & _). apply Z.eqb_neq in N0.
  assert (Hp : 0 < x) by (nums; lia).
  destruct (ctz_ok x Hp) as (P & m & E & O & M).
  assert (Cb : ctz x < 64) by (apply ctz_bound; nums; lia).
  set (k := ctz x) in *. pose proof (Z.pow_pos_nonneg 2 k ltac:(lia) P) as PP.
  assert (Ef : Z.shiftr x k = m) by (rewrite Z.shiftr_div_pow2 by lia; rewrite E at 1; apply Z.div_mul; lia).
  rewrite Ef. destruct (Z.eqb_spec m 1) as [M1|M1].
  { destruct (inverse_2exp_ok k P) as (r & -> & Hw & Hi). cbn [obind]. exists r. split; [reflexivity|]. split; [auto|].
    rewrite E, M1, Z.mul_1_l, Z.mul_comm. exact Hi. }
  set (s0 := {| i_f := m; i_g := GL; i_c := 1; i_d := 0; i_k := k |}).
  assert (Bm : m <= x) by nia.
  assert (G0 : good x s0).
  { unfold good, s0; cbn [i_f i_g i_c i_d i_k]. split; [exact O|]. split; [reflexivity|]. split; [nums; lia|].
    split; [nums; lia|]. split; [|split; [lia|split]].
    - apply Zgcd_1_rel_prime. apply rel_prime_sym. apply prime_rel_prime; [exact GL_prime|].
      intros (q & Eq). apply N. rewrite E, Eq. replace (q * GL * 2 ^ k) with (q * 2 ^ k * GL) by ring. apply Z_mod_mult.
    - exists 0. rewrite E at 1. ring.
    - exists (- 2 ^ k). ring. }
  destruct (safe_ok x s0 G0 M1) as (s1 & -> & G1 & F1 & Gg1 & K1 & C1). cbn [obind].
  assert (C1' : i_c s1 = 1 \/ i_c s1 = -1).
  { unfold inv_swap, s0 in C1; cbn [i_f i_g] in C1. destruct (m <? GL); cbn in C1; lia. }
  unfold s0 in F1, Gg1, K1; cbn [i_f i_g i_k] in F1, Gg1, K1. clearbody s0.
  pose proof G1 as (_ & _ & Bf1 & Bg1 & _ & Kn1 & Cc1 & _).
  destruct (Z.eqb_spec (i_f s1) 1) as [F11|F11].
  { destruct (inverse_2exp_ok (i_k s1) Kn1) as (r & Er & Hw & Hi). rewrite Er. cbn [obind].
    assert (Kb : 0 <= i_k s1 < 160) by lia. pose proof (inverse_2exp_canon _ _ Kb Er) as Cr.
    rewrite F11, Z.mul_1_l in Cc1.
    destruct (Z.eqb_spec (i_c s1) (-1)) as [Cm|Cm].
    - rewrite unsigned_some by (nums; lia). cbn [obind]. eexists. split; [reflexivity|]. split; [nums; lia|].
      rewrite Cm in Cc1. replace (x * (GL - r)) with ((-1 * x) * r + x * GL) by ring. rewrite Z_mod_plus_full.
      rewrite Z.mul_mod by (rewrite GL_val; lia). rewrite (divide_mod _ _ Cc1).
      rewrite <- Z.mul_mod by (rewrite GL_val; lia). rewrite Z.mul_comm. exact Hi.
    - exists r. split; [reflexivity|]. split; [auto|]. replace (i_c s1) with 1 in Cc1 by lia. rewrite Z.mul_1_l in Cc1.
      rewrite Z.mul_mod by (rewrite GL_val; lia). rewrite (divide_mod _ _ Cc1).
      rewrite <- Z.mul_mod by (rewrite GL_val; lia). rewrite Z.mul_comm. exact Hi. }
  destruct (safe_ok x s1 G1 F11) as (s2 & -> & G2 & F2 & Gg2 & K2 & _). cbn [obind].
  pose proof G2 as (_ & _ & Bf2 & Bg2 & _).
  assert (S63 : small63 s2) by (unfold small63; change (U64 / 2) with 9223372036854775808; nums; lia).
  assert (LB : forall v, 0 < v < U64 -> Z.log2 v <= 63).
  { intros v Hv. assert (Z.log2 v < 64); [|lia]. apply Z.log2_lt_pow2; [lia|]. change (2 ^ 64) with U64. lia. }
  destruct (loop_ok x 128 s2 G2 S63) as (s3 & -> & G3 & F3).
  { pose proof (LB _ Bf2). pose proof (LB _ Bg2). lia. }
  cbn [obind]. pose proof G3 as (_ & _ & _ & _ & _ & Kn3 & Cc3 & _). rewrite F3, Z.mul_1_l in Cc3.
  destruct (inverse_2exp_ok (i_k s3) Kn3) as (r & -> & Hw & Hi). cbn [obind].
  destruct (gmul_ok (i_c s3 mod GL) r ltac:(pose proof (gcanon (i_c s3)); nums; lia) Hw) as (r' & -> & Hw' & Em). cbn [obind].
  exists r'. split; [reflexivity|]. split; [auto|].
  rewrite Z.mul_mod, Em, <- Z.mul_mod by (rewrite GL_val; lia).
  assert (A : (x * (i_c s3 mod GL)) mod GL = (2 ^ i_k s3) mod GL).
  { rewrite Z.mul_mod_idemp_r by (rewrite GL_val; lia). rewrite Z.mul_comm. apply divide_mod. exact Cc3. }
  rewrite Z.mul_assoc, Z.mul_mod, A, <- Z.mul_mod by (rewrite GL_val; lia). rewrite Z.mul_comm. exact Hi.
Qed.

Lemma inverse_zero ck x : word x -> x mod GL = 0 -> try_inverse_u64 ck x = Some None.
Proof. intros Hx E. apply gis_zero_ok in E; auto. unfold try_inverse_u64. unfold gl_is_zero in E. rewrite E. reflexivity. Qed.

(** ** With a width check on c and d: a fault or the same result *)
Section Checked.
Variable ck : Z -> option Z.
Hypothesis Hck : forall v, ck v = None \/ ck v = Some v.

Ltac dck := match goal with |- context [ck ?v] => destruct (Hck v) as [->| ->]; cbn [obind]; auto end.

Lemma safe_sim s : safe_iteration ck s = None \/ safe_iteration ck s = safe_iteration Some s.
Proof.
  unfold safe_iteration. cbv zeta. destruct (_ =? _); destruct (unsigned _ _); cbn [obind]; auto; repeat dck.
Qed.
Lemma unsafe_sim s : unsafe_iteration ck s = None \/ unsafe_iteration ck s = unsafe_iteration Some s.
Proof.
  unfold unsafe_iteration. cbv zeta. destruct (_ =? _); destruct (unsigned _ _); cbn [obind]; auto; repeat dck.
Qed.
Lemma loop_sim fuel : forall s, inv_loop ck fuel s = None \/ inv_loop ck fuel s = inv_loop Some fuel s.
Proof.
  induction fuel as [|n IH]; intros s; cbn [inv_loop]; destruct (_ =? _); auto.
  destruct (unsafe_sim s) as [->| ->]; auto. destruct (unsafe_iteration Some s); cbn [obind]; auto.
Qed.
Lemma inverse_sim x : try_inverse_u64 ck x = None \/ try_inverse_u64 ck x = try_inverse_u64 Some x.
Proof.
  unfold try_inverse_u64. destruct (_ || _); [right; reflexivity|]. cbv zeta. destruct (_ =? _); [right; reflexivity|].
  match goal with |- context [safe_iteration ck ?s] => destruct (safe_sim s) as [->| ->]; [left; reflexivity|];
    destruct (safe_iteration Some s) as [s1|]; cbn [obind]; [|left; reflexivity] end.
  destruct (i_f s1 =? 1); [right; reflexivity|].
  destruct (safe_sim s1) as [->| ->]; [left; reflexivity|].
  destruct (safe_iteration Some s1) as [s2|]; cbn [obind]; [|left; reflexivity].
  destruct (loop_sim 128 s2) as [->| ->]; [left|right]; reflexivity.
Qed.
End Checked.

Theorem gl_inv_ok x : word x ->
  (x mod GL = 0 -> gl_inv x = Some None) /\
  (x mod GL <> 0 -> gl_inv x = None \/ exists r, gl_inv x = Some (Some r) /\ word r /\ (x * r) mod GL = 1).
Proof.
  intros Hx. split; intros H; [apply inverse_zero; auto|].
  destruct (inverse_sim (signed U128)) with (x := x) as [E|E].
  { intros v. unfold signed. destruct (_ && _); auto. }
  - left; exact E.
  - right. unfold gl_inv. rewrite E. apply inverse_ok; auto.
Qed.

Theorem gconversions : (forall x, word x -> gl_from_u64 x = x mod GL /\ gl_to_u256 x = x mod GL) /\
  (forall x, 0 <= x < U32 -> gl_from_u32 x = x mod GL) /\
  (forall x, 0 <= x -> gl_from_u256 x = x mod GL) /\
  (forall bs, Forall is_byte bs -> (8 <= length bs)%nat ->
     gl_from_uniform_bytes bs = Some (le_val (firstn 8 bs) mod GL)).
Proof.
  split; [|split; [|split]].
  - intros x Hx. split; apply reduce64_ok; auto.
  - intros x Hx. unfold gl_from_u32. symmetry. apply Z.mod_small. change U32 with 4294967296 in Hx. rewrite GL_val. lia.
  - exact gfrom_u256_ok.
  - exact guniform_ok.
Qed.
