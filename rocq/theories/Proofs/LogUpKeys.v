(** Single-key tables: completeness for all challenges, the code's multiplicity
    hint, and soundness over both challenges. *)
From Coq Require Import ZArith Znumtheory List Bool Lia Ring Field.
From Verif Require Import Base.Field Base.Poly Base.ListX Spec.Numbers Model.LogUp Model.LogUpHints Model.Gadgets
  Proofs.LogUp Proofs.LogUpHints Proofs.Trace Base.Pocklington.
Import ListNotations.

Section G.
Variable K : field.
Add Field KfieldG : (fth K).
Local Open Scope fld_scope.
Variable R : Type.
Variable rdec : forall a b : R, {a = b} + {a <> b}.
Variable f : R -> K.

Lemma num_add_g (table : list R) x (c1 c2 : R -> K) :
  num (rsum K (terms K (combine (map f table) (map (fun t => c1 t + c2 t) table)) x))
  = num (rsum K (terms K (combine (map f table) (map c1 table)) x))
    + num (rsum K (terms K (combine (map f table) (map c2 table)) x)).
Proof.
  induction table as [|t table IH]; cbn [map combine]; [cbn; ring|].
  rewrite !num_cons, IH, !map_fst_combine by now rewrite !map_length. ring.
Qed.

Lemma num_zero_g (table : list R) x (c : R -> K) : (forall t, In t table -> c t = 0) ->
  num (rsum K (terms K (combine (map f table) (map c table)) x)) = 0.
Proof.
  induction table as [|t table IH]; intros H; cbn [map combine]; [reflexivity|].
  rewrite num_cons.
  rewrite IH by (intros; apply H; now right). rewrite (H t) by now left. ring.
Qed.

Lemma num_indicator_g (table : list R) x q : NoDup table -> In q table ->
  (x - f q) * num (rsum K (terms K (combine (map f table)
     (map (fun t => if rdec q t then 1 else 0) table)) x)) = vprod K (map f table) x.
Proof.
  induction table as [|t table IH]; intros ND Hin; [contradiction|].
  inversion ND as [|? ? Hnin ND']; subst.
  cbn [map combine vprod]. rewrite num_cons, map_fst_combine by now rewrite !map_length.
  destruct (rdec q t) as [->|n].
  - rewrite (num_zero_g table x).
    2:{ intros s Hs. destruct (rdec t s) as [->|]; [contradiction|reflexivity]. }
    ring.
  - destruct Hin as [E|Hin]; [congruence|].
    rewrite <- (IH ND' Hin). ring.
Qed.

Definition row_counts (table queries : list R) : list K :=
  map (fun t => f_of_nat (count_occ rdec queries t)) table.

Lemma cross_eq_g (table queries : list R) x : NoDup table -> (forall q, In q queries -> In q table) ->
  num (rsum K (terms K (combine (map f table) (row_counts table queries)) x)) * vprod K (map f queries) x
  = vprod K (map f table) x
    * num (rsum K (terms K (combine (map f queries) (repeat 1 (length queries))) x)).
Proof.
  intros ND. induction queries as [|q queries IH]; intros Hin.
  - unfold row_counts. rewrite (num_zero_g table x); [cbn; ring|]. intros; reflexivity.
  - unfold row_counts.
    assert (E : forall t, f_of_nat (count_occ rdec (q :: queries) t)
        = (if rdec q t then 1 else 0) + f_of_nat (K:=K) (count_occ rdec queries t)).
    { intros t. cbn [count_occ]. destruct (rdec q t); cbn [f_of_nat]; ring. }
    rewrite (map_ext _ _ E).
    rewrite num_add_g.
    cbn [length repeat combine vprod map]. rewrite num_cons.
    rewrite (map_fst_combine (map f queries)) by now rewrite repeat_length, map_length.
    fold (row_counts table queries).
    specialize (IH (fun q' h => Hin q' (or_intror h))).
    assert (Hq : In q table) by (apply Hin; now left).
    pose proof (num_indicator_g table x q ND Hq) as HI.
    match goal with |- (?A + ?B) * ((x - f q) * ?V) = _ =>
      transitivity (((x - f q) * A) * V + (x - f q) * (B * V)); [ring|] end.
    rewrite HI, IH. ring.
Qed.
End G.

Section Rows.
Variable K : field.
Add Field KfieldR : (fth K).
Local Open Scope fld_scope.

Definition row_dec := list_eq_dec (@feq_dec K).

(** Distinct rows, every query a row of the table, multiplicities by row: the
    check passes for every challenge, even when rows collide after combination. *)
Theorem single_key_complete_rows (table queries : list (list K)) alpha betas :
  table <> [] -> queries <> [] -> NoDup table -> (forall q, In q queries -> In q table) ->
  single_key_final_check table queries (row_counts K _ row_dec table queries) alpha betas.
Proof.
  intros Ht Hq ND Hin. unfold single_key_final_check.
  destruct table as [|t0 tb] eqn:ET; [congruence|].
  destruct queries as [|q0 qs] eqn:EQ; [congruence|]. rewrite <- ET, <- EQ in *.
  unfold combine_columns. set (g := fun row => combine_row row (column_randomness betas)).
  unfold assert_eq_rational. rewrite !logup_poly_val_spec, !den_rsum, !map_fst_combine.
  - rewrite map_length. apply (cross_eq_g K _ row_dec g); auto.
  - unfold row_counts. now rewrite !map_length.
  - now rewrite !map_length, repeat_length.
Qed.

(** A (key, value) pair that is not in the table: at most |table| values of beta
    leave |table| + |queries| or more accepting values of alpha. *)
Theorem single_key_sound_both (table queries : list (K * K)) counts k v (betas : list K) :
  let rows := map (fun kv : K * K => [fst kv; snd kv]) in
  length counts = length table -> In (k, v) queries -> ~ In (k, v) table ->
  (forall m, (0 < m <= length queries)%nat -> f_of_nat (K:=K) m <> 0) ->
  NoDup betas ->
  (forall b, In b betas -> exists alphas, NoDup alphas /\
     (length table + length queries <= length alphas)%nat /\
     forall a, In a alphas -> single_key_final_check (rows table) (rows queries) counts a [b]) ->
  (length betas <= length table)%nat.
Proof.
  intros rows Hlen Hq Hn Hchar ND H.
  apply (column_collision_bound K table k v); auto.
  intros b Hb. destruct (H b Hb) as (alphas & NDa & Hla & Hacc).
  destruct (in_dec feq_dec (combine_row [k; v] (column_randomness [b]))
              (combine_columns (map (fun kv : K * K => [fst kv; snd kv]) table) (column_randomness [b]))) as [Hi|Hi]; [exact Hi|].
  exfalso.
  assert (B : (length alphas < length (rows table) + length (rows queries))%nat).
  { apply (single_key_sound K (rows table) (rows queries) counts [k; v] alphas [b]); auto.
    - unfold rows. now rewrite map_length.
    - unfold rows. apply in_map_iff. exists (k, v). auto.
    - unfold rows. rewrite map_length. auto. }
  unfold rows in B. rewrite !map_length in B. lia.
Qed.
End Rows.

Local Open Scope Z_scope.

(** Signed keys. *)
Definition signed_keys (p : Z) (n : nat) : list Z :=
  map (fun i => enc p (Z.of_nat i - 2 ^ (Z.of_nat n - 1))) (seq 0 (2 ^ n)).

Lemma key32_bn254 x y : - 2 ^ 27 <= x < 2 ^ 27 -> - 2 ^ 27 <= y < 2 ^ 27 ->
  key32 (enc bn254_r x) = key32 (enc bn254_r y) -> x = y.
Proof.
  assert (G : forall z, - 2 ^ 27 <= z < 2 ^ 27 ->
     key32 (enc bn254_r z) = if 0 <=? z then z else 4026531841 + z).
  { intros z Hz. unfold key32, enc. destruct (Z.leb_spec 0 z).
    - rewrite (Z.mod_small z bn254_r) by (unfold bn254_r; lia). apply Z.mod_small. lia.
    - replace (z mod bn254_r) with (bn254_r + z).
      + replace bn254_r with (4026531841 + (bn254_r / 2 ^ 32) * 2 ^ 32) by (vm_compute; reflexivity).
        replace (4026531841 + bn254_r / 2 ^ 32 * 2 ^ 32 + z) with (4026531841 + z + bn254_r / 2 ^ 32 * 2 ^ 32) by ring.
        rewrite Z_mod_plus_full. apply Z.mod_small. lia.
      + rewrite <- (Z.mod_small (bn254_r + z) bn254_r) by (unfold bn254_r; lia).
        replace (bn254_r + z) with (z + 1 * bn254_r) by ring. apply Z_mod_plus_full. }
  intros Hx Hy. rewrite !G by auto. destruct (Z.leb_spec 0 x), (Z.leb_spec 0 y); lia.
Qed.

Lemma key32_goldilocks x y : - 2 ^ 31 < x < 2 ^ 31 -> - 2 ^ 31 < y < 2 ^ 31 -> x <> y ->
  key32 (enc goldilocks_p x) = key32 (enc goldilocks_p y) <-> (x = -1 /\ y = 0 \/ x = 0 /\ y = -1).
Proof.
  assert (G : forall z, - 2 ^ 31 < z < 2 ^ 31 ->
     key32 (enc goldilocks_p z) = if 0 <=? z then z else if z =? -1 then 0 else 2 ^ 32 + 1 + z).
  { intros z Hz. unfold key32, enc, goldilocks_p. destruct (Z.leb_spec 0 z).
    - rewrite (Z.mod_small z _) by lia. apply Z.mod_small. lia.
    - replace (z mod _) with (2 ^ 64 - 2 ^ 32 + 1 + z).
      + destruct (Z.eqb_spec z (-1)) as [->|]; [reflexivity|].
        replace (2 ^ 64 - 2 ^ 32 + 1 + z) with (2 ^ 32 + 1 + z + (2 ^ 32 - 2) * 2 ^ 32) by lia.
        rewrite Z_mod_plus_full. apply Z.mod_small. lia.
      + rewrite <- (Z.mod_small (2 ^ 64 - 2 ^ 32 + 1 + z) (2 ^ 64 - 2 ^ 32 + 1)) by lia.
        replace (2 ^ 64 - 2 ^ 32 + 1 + z) with (z + 1 * (2 ^ 64 - 2 ^ 32 + 1)) by ring.
        apply Z_mod_plus_full. }
  intros Hx Hy Hne. rewrite !G by auto.
  destruct (Z.leb_spec 0 x), (Z.leb_spec 0 y); try destruct (Z.eqb_spec x (-1)); try destruct (Z.eqb_spec y (-1)); lia.
Qed.

(** Function tables over a prime field with residues given as integers. *)
Section HonestTable.
Variable p : Z.
Hypothesis Hp : prime p.
Notation KK := (Fp_field p Hp).

Definition frow (kv : Z * Z) : list KK := [to_fp p (fst kv) : KK; to_fp p (snd kv) : KK].

Lemma frow_inj a b : - p < fst a - fst b < p -> - p < snd a - snd b < p -> frow a = frow b -> a = b.
Proof.
  intros H1 H2 E. unfold frow in E. injection E as E1 E2. destruct a as [a1 a2], b as [b1 b2]; cbn in *.
  assert (G : forall u v, - p < u - v < p -> u mod p = v mod p -> u = v).
  { intros u v Huv Em. assert (Hm : (u - v) mod p = 0) by (rewrite Zminus_mod, Em, Z.sub_diag; apply Zmod_0_l).
    assert (0 < p) by (destruct Hp; lia).
    apply Z.mod_divide in Hm; [|lia]. destruct Hm as (k & Hk). assert (k = 0) by nia. lia. }
  f_equal; apply G; auto.
Qed.

(** The honest multiplicities (computed from the keys by the code's hint) make
    the final check pass for every challenge, when no two keys in play agree
    modulo 2^32. *)
Theorem honest_key_table (table queries : list (Z * Z)) alpha betas :
  table <> [] -> queries <> [] ->
  (forall a b, In a table -> In b table -> fst a = fst b -> a = b) -> NoDup table ->
  (forall kv, In kv table -> 0 <= fst kv < p /\ 0 <= snd kv < p) ->
  (forall kv, In kv queries -> In kv table) ->
  (forall a b, In a table -> In b table -> key32 (fst a) = key32 (fst b) -> fst a = fst b) ->
  Z.of_nat (length queries) < 2 ^ 32 ->
  single_key_final_check (map frow table) (map frow queries)
    (map (to_fp p : Z -> KK) (query_count_by_key_hint (map fst table) (map fst queries))) alpha betas.
Proof.
  intros Ht Hq Hfun ND Hin Hsub Hkey Hlen.
  assert (Hinj : forall a b, In a table -> In b table -> frow a = frow b -> a = b).
  { intros a b Ha Hb. destruct (Hin a Ha), (Hin b Hb). apply frow_inj; lia. }
  rewrite query_count_by_key_correct.
  2:{ intros t q Htt Hqq E. apply in_map_iff in Htt as (a & <- & Ha). apply in_map_iff in Hqq as (b & <- & Hb).
      apply Hkey; auto. }
  2:{ now rewrite map_length. }
  replace (map (to_fp p : Z -> KK) (counts_of (map fst table) (map fst queries)))
    with (row_counts KK _ (row_dec KK) (map frow table) (map frow queries)).
  { apply single_key_complete_rows.
    - destruct table; [congruence|discriminate].
    - destruct queries; [congruence|discriminate].
    - clear - ND Hinj. induction table as [|a table IH]; cbn; [constructor|].
      inversion ND; subst. constructor.
      + intros Hi. apply in_map_iff in Hi as (b & E & Hb).
        apply Hinj in E; [subst; contradiction|now right|now left].
      + apply IH; auto. intros; apply Hinj; auto; now right.
    - intros r Hr. apply in_map_iff in Hr as (kv & <- & Hkv). apply in_map. auto. }
  unfold row_counts, counts_of. rewrite !map_map. apply map_ext_in. intros t Htin.
  rewrite f_of_nat_fp. f_equal. f_equal.
  clear Hq Hlen. induction queries as [|q qs IH]; [reflexivity|].
  cbn [map count_occ]. rewrite IH by (intros; apply Hsub; now right).
  assert (Hqt : In q table) by (apply Hsub; now left).
  destruct (row_dec KK (frow q) (frow t)) as [E|E], (Z.eq_dec (fst q) (fst t)) as [E'|E']; auto.
  - apply Hinj in E; auto. subst. contradiction.
  - exfalso. apply E. now rewrite (Hfun q t Hqt Htin E').
Qed.
End HonestTable.

(** Goldilocks: one query of the key 0 in the smallest signed table is counted
    for the key -1 as well, and the honest final check fails for all challenges
    but alpha = 0. *)
Section DC.
Variable K : field.
Add Field KG : (fth K).
Lemma double_count (t q : list K) alpha beta :
  single_key_final_check [t; q] [q] [1%K; 1%K] alpha [beta] ->
  alpha = combine_row q (column_randomness [beta]).
Proof.
  intros H. unfold single_key_final_check in H. unfold assert_eq_rational in H.
  rewrite !logup_poly_val_spec, !den_rsum in H.
  unfold combine_columns in H.
  cbn [map length repeat combine fst vprod terms rsum snd num den add_rational rat_zero] in H.
  set (cq := combine_row q (column_randomness [beta])) in *.
  set (ct := combine_row t (column_randomness [beta])) in *.
  clearbody cq ct.
  assert (E : ((alpha - cq) * (alpha - cq) = 0)%K).
  { match type of H with ?a = ?b =>
      transitivity (a - b)%K; [ring|]; rewrite H; ring end. }
  apply fmul_integral in E. destruct E as [E|E]; exact (proj1 (fsub_eq _ _ _) E).
Qed.

End DC.

Lemma goldilocks_counts :
  query_count_by_key_hint [enc goldilocks_p (-1); enc goldilocks_p 0] [enc goldilocks_p 0] = [1; 1].
Proof. vm_compute. reflexivity. Qed.

Theorem goldilocks_collision (Hp : prime goldilocks_p) (v0 v1 : Z) (alpha beta : Fp_field goldilocks_p Hp) :
  let table := [(enc goldilocks_p (-1), v1); (enc goldilocks_p 0, v0)] in
  let queries := [(enc goldilocks_p 0, v0)] in
  single_key_final_check (map (frow goldilocks_p Hp) table) (map (frow goldilocks_p Hp) queries)
    (map (to_fp goldilocks_p : Z -> Fp_field goldilocks_p Hp)
       (query_count_by_key_hint (map fst table) (map fst queries))) alpha [beta] ->
  alpha = combine_row (frow goldilocks_p Hp (enc goldilocks_p 0, v0)) (column_randomness [beta]).
Proof.
  intros table queries H.
  change (map fst table) with [enc goldilocks_p (-1); enc goldilocks_p 0] in H.
  change (map fst queries) with [enc goldilocks_p 0] in H.
  rewrite goldilocks_counts in H. 
  exact (double_count _ _ _ _ _ H).
Qed.
