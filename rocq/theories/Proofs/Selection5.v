(** Resize in linear mode, one output element. *)
From Coq Require Import ZArith List Bool Arith Znumtheory Lia.
From Verif Require Import Spec.Numbers Spec.Shapes Spec.Tensors Spec.HonestProver Spec.Selection
  Model.Builder Model.Gadgets Model.Layers Model.Shapes Model.DataMovement Model.Selection
  Proofs.Builder Proofs.RangeCheck Proofs.Gadgets Proofs.Layers Proofs.Layers2 Proofs.HonestRun Proofs.Selection Proofs.Selection4.
Import ListNotations.
Local Open Scope Z_scope.

Section R.
Variable p : Z.
Hypothesis Hprime : prime p.
Variable c : nat.
Hypothesis Hc : (0 < c)%nat.
Variable F : nat -> list (list Z).
Notation acc := (accepts p (table_rows c F)).
Variables kappa nb : nat.
Hypothesis Hk : width_ok c kappa.
Hypothesis Hw : width_ok c nb.
Variables xs ws : list Z.
Hypothesis Lw : length ws = length xs.
Let S0 := dot xs ws.
Hypothesis Hbig : Z.abs S0 + pow2 (rounded c nb) * pow2 kappa + pow2 kappa + pow2 (rounded c kappa) < p.

Lemma pow2_pos n : 0 < pow2 n.
Proof. unfold pow2, zn. apply Z.pow_pos_nonneg; lia. Qed.
Lemma dot_enc : forall l s, fold_left (fun s xw => add p s (mul p (fst xw) (snd xw))) (combine (map (enc p) (map fst l)) (map (enc p) (map snd l))) (enc p s) =
  enc p (s + fold_right (fun xw s => fst xw * snd xw + s) 0 l).
Proof.
  induction l as [|[a b] l IH]; intros s; cbn [map combine fold_left fold_right fst snd].
  - now rewrite Z.add_0_r.
  - rewrite enc_mul, enc_add, IH by auto. f_equal. lia.
Qed.
Lemma combine_split_eq {A B} (l : list A) (m : list B) : length m = length l -> map fst (combine l m) = l /\ map snd (combine l m) = m.
Proof.
  revert m. induction l as [|a l IH]; intros [|b m] L; cbn in *; try discriminate; auto. destruct (IH m ltac:(lia)) as (-> & ->). auto.
Qed.
Lemma weighted : fold_left (fun s xw => add p s (mul p (fst xw) (snd xw))) (combine (map (enc p) xs) (map (enc p) ws)) (enc p 0) = enc p S0.
Proof.
  destruct (combine_split_eq xs ws Lw) as (E1 & E2). pose proof (dot_enc (combine xs ws) 0) as H. rewrite E1, E2 in H. exact H.
Qed.
Lemma y_bound y : rci c nb y -> Z.abs (y * pow2 kappa) <= pow2 (rounded c nb) * pow2 kappa.
Proof.
  intros (A & B). pose proof (pow2_pos kappa). pose proof (pow2_pos nb). pose proof (pow2_le _ _ (rounded_ge c nb)).
  rewrite Z.abs_mul, (Z.abs_eq (pow2 kappa)) by lia. apply Z.mul_le_mono_nonneg_r; lia.
Qed.
Lemma half_bound : 0 <= pow2 kappa / 2 <= pow2 kappa.
Proof. pose proof (pow2_pos kappa). split; [apply Z.div_pos; lia|]. apply Z.div_le_upper_bound; lia. Qed.
Lemma nb_le : pow2 (rounded c nb) <= p.
Proof. pose proof (pow2_pos kappa). pose proof (pow2_pos (rounded c nb)). pose proof (pow2_pos (rounded c kappa)).
  assert (pow2 (rounded c nb) * 1 <= pow2 (rounded c nb) * pow2 kappa) by (apply Z.mul_le_mono_nonneg_l; lia). lia. Qed.
Lemma rem_rc y : rci c nb y ->
  acc (range_check p c (enc p (S0 + pow2 kappa / 2 - y * pow2 kappa)) kappa) tt <-> rci c kappa (S0 + pow2 kappa / 2 - y * pow2 kappa).
Proof.
  intros Ry. pose proof (y_bound y Ry). pose proof half_bound. pose proof (pow2_pos kappa). pose proof (pow2_pos (rounded c nb)).
  pose proof (pow2_pos (rounded c kappa)). assert (0 <= pow2 (rounded c nb) * pow2 kappa) by (apply Z.mul_nonneg_nonneg; lia).
  apply (rc_int p Hprime c Hc F kappa _ Hk); lia.
Qed.
Theorem linear_acc o : acc (resize_linear_element p c kappa nb (map (enc p) xs) ws) o <->
  exists y, rci c nb y /\ rci c kappa (S0 + pow2 kappa / 2 - y * pow2 kappa) /\ o = enc p y.
Proof.
  unfold resize_linear_element. cbv zeta. change (const p) with (enc p). rewrite weighted. pose proof (prime_ge_2 _ Hprime) as P2.
  rewrite accepts_bind. split.
  - intros (y & Hy & H). apply accepts_hint1 in Hy. apply accepts_bind in H as ([] & H1 & H). apply accepts_bind in H as ([] & H2 & H).
    apply accepts_ret in H. subst o. destruct (rc_of p Hprime c Hc F nb y Hw nb_le Hy H2) as (z & Rz & ->).
    exists z. split; auto. split; auto. apply (rem_rc z Rz). rewrite enc_mul, enc_add, enc_sub in H1 by auto. exact H1.
  - intros (z & Rz & R2 & ->). exists (enc p z). split; [apply accepts_hint1; now apply enc_range|].
    rewrite enc_mul, enc_add, enc_sub by auto. apply accepts_bind. exists tt. split; [now apply rem_rc|].
    apply accepts_bind. exists tt. split; [|now apply accepts_ret].
    assert (N := nb_le). unfold rci in Rz. pose proof (pow2_le _ _ (rounded_ge c nb)). apply (rc_int p Hprime c Hc F nb _ Hw); auto. lia.
Qed.

(** Rounded to the nearest, halves up. *)
Definition mean : Z := (S0 + pow2 kappa / 2) / pow2 kappa.
Lemma rem_lo y : rci c kappa (S0 + pow2 kappa / 2 - y * pow2 kappa) <->
  (mean <= y /\ (y - mean) * pow2 kappa <= (S0 + pow2 kappa / 2) mod pow2 kappa + pow2 (rounded c kappa) - pow2 kappa).
Proof.
  unfold rci, mean. pose proof (pow2_pos kappa) as P. set (a := S0 + pow2 kappa / 2) in *.
  pose proof (Z.div_mod a (pow2 kappa) ltac:(lia)). pose proof (Z.mod_pos_bound a (pow2 kappa) P). split.
  - intros (A & B). split; [|nia]. assert (a < (y + 1) * pow2 kappa) by lia.
    assert (a / pow2 kappa < y + 1) by (apply Z.div_lt_upper_bound; lia). lia.
  - intros (A & B). split; [nia|]. assert (pow2 kappa * (a / pow2 kappa) <= pow2 kappa * y) by (apply Z.mul_le_mono_nonneg_l; lia). lia.
Qed.

(** The hint. *)
Lemma hint_sum : forall l s, Forall (fun xw => 2 * Z.abs (fst xw) < p /\ 0 <= snd xw < p) l ->
  fold_left (fun s xw => s + (if p / 2 <? fst xw then fst xw - p else fst xw) * snd xw)
    (combine (map (enc p) (map fst l)) (map (enc p) (map snd l))) s = s + fold_right (fun xw s => fst xw * snd xw + s) 0 l.
Proof.
  pose proof (prime_ge_2 _ Hprime) as P2.
  induction l as [|[a b] l IH]; intros s H; cbn [map combine fold_left fold_right fst snd]; [lia|].
  inversion_clear H as [|? ? (Ha & Hb) H']. cbn [fst snd] in *. rewrite IH by auto.
  assert (Eb : enc p b = b) by (unfold enc; apply Z.mod_small; lia). rewrite Eb.
  pose proof (Z.mul_div_le p 2 ltac:(lia)) as D1. pose proof (Z.mul_succ_div_gt p 2 ltac:(lia)) as D2.
  assert (Ea : (if p / 2 <? enc p a then enc p a - p else enc p a) = a).
  { destruct (Z_lt_dec a 0).
    - assert (Ez : enc p a = p + a). { unfold enc. rewrite <- (Z.mod_small (p + a) p) by lia. rewrite <- (Z_mod_plus_full a 1 p). f_equal. lia. }
      rewrite Ez, (proj2 (Z.ltb_lt _ _)) by lia. lia.
    - assert (Ez : enc p a = a) by (unfold enc; apply Z.mod_small; lia). rewrite Ez, (proj2 (Z.ltb_ge _ _)) by lia. lia. }
  rewrite Ea. lia.
Qed.
Hypothesis Nx : xs <> [].
Hypothesis Bx : Forall (fun x => 2 * Z.abs x < p) xs.
Hypothesis Bw : Forall (fun w => 0 <= w < p) ws.
Lemma linear_hint : resize_hint p (map (enc p) xs ++ map (enc p) ws ++ [enc p (pow2 kappa)]) 1 =
  Some [enc p (if 0 <=? S0 then Z.min mean (2 ^ 63 - 1) else 0)].
Proof.
  pose proof (pow2_pos kappa) as P. pose proof (prime_ge_2 _ Hprime) as P2. unfold resize_hint. rewrite !app_length, !map_length, Lw. cbn [length].
  assert (L : (0 < length xs)%nat) by (destruct xs; [congruence|cbn; lia]).
  replace (length xs + (length xs + 1))%nat with (1 + length xs * 2)%nat by lia.
  rewrite (proj2 (Nat.ltb_ge _ 3)) by lia. rewrite Nat.mod_add by lia. cbn [orb Nat.eqb Nat.modulo Nat.divmod fst snd Nat.sub].
  replace ((1 + length xs * 2 - 1) / 2)%nat with (length xs) by (replace (1 + length xs * 2 - 1)%nat with (length xs * 2)%nat by lia; symmetry; now rewrite Nat.div_mul).
  replace ((length xs * 2 - 0) / 2)%nat with (length xs) by (replace (length xs * 2 - 0)%nat with (length xs * 2)%nat by lia; symmetry; now rewrite Nat.div_mul).
  assert (Ek : enc p (pow2 kappa) = pow2 kappa).
  { unfold enc. apply Z.mod_small. pose proof (pow2_pos (rounded c kappa)). pose proof (pow2_pos (rounded c nb)).
    assert (0 <= pow2 (rounded c nb) * pow2 kappa) by (apply Z.mul_nonneg_nonneg; lia). lia. }
  rewrite !app_assoc. rewrite app_nth2 by (rewrite app_length, !map_length, Lw; lia). rewrite app_length, !map_length, Lw.
  replace (2 * length xs - (length xs + length xs))%nat with 0%nat by lia. cbn [nth].
  rewrite Ek. rewrite (proj2 (Z.eqb_neq _ 0)) by lia.
  assert (E1 : firstn (length xs) ((map (enc p) xs ++ map (enc p) ws) ++ [pow2 kappa]) = map (enc p) xs).
  { rewrite <- app_assoc. rewrite <- (map_length (enc p) xs). rewrite firstn_app, Nat.sub_diag, firstn_all. cbn. apply app_nil_r. }
  assert (E2 : firstn (length xs) (skipn (length xs) ((map (enc p) xs ++ map (enc p) ws) ++ [pow2 kappa])) = map (enc p) ws).
  { rewrite <- app_assoc. replace (length xs) with (length (map (enc p) xs)) at 2 by apply map_length.
    rewrite skipn_app, Nat.sub_diag, skipn_all. cbn [app skipn]. replace (length xs) with (length (map (enc p) ws)) by (rewrite map_length; auto).
    rewrite firstn_app, Nat.sub_diag, firstn_all. cbn. apply app_nil_r. }
  rewrite E1, E2. destruct (combine_split_eq xs ws Lw) as (F1 & F2). pose proof (hint_sum (combine xs ws) 0) as H. rewrite F1, F2 in H. rewrite H.
  - rewrite Z.add_0_l. fold (dot xs ws). fold S0. reflexivity.
  - apply Forall_forall. intros [a b] I. rewrite Forall_forall in Bx, Bw. split; [apply Bx; now apply (in_combine_l _ _ _ _ I)|apply Bw; now apply (in_combine_r _ _ _ _ I)].
Qed.
(** The honest prover: the mean when it is not negative and fits. *)
Theorem linear_run inv G : (forall ins, G 41%nat ins 1%nat = resize_hint p ins 1) -> 0 <= S0 -> mean < pow2 nb -> mean < 2 ^ 63 ->
  run (honest_div p inv G) (table_rowsb c F) (resize_linear_element p c kappa nb (map (enc p) xs) ws) = Some (enc p mean).
Proof.
  intros HG HS Hm H63. apply run_hdiv. pose proof (pow2_pos kappa) as P. pose proof half_bound as HB.
  assert (M0 : 0 <= mean) by (apply Z.div_pos; lia).
  assert (R1 : rci c nb mean) by (apply rci_full; lia).
  assert (R2 : rci c kappa (S0 + pow2 kappa / 2 - mean * pow2 kappa)).
  { apply rem_lo. split; [lia|]. pose proof (pow2_le _ _ (rounded_ge c kappa)). pose proof (Z.mod_pos_bound (S0 + pow2 kappa / 2) _ P). lia. }
  unfold resize_linear_element. cbv zeta. change (const p) with (enc p). rewrite weighted.
  rewrite run_bind. rewrite (rn_custom _ _ _ _ _ (enc p mean)).
  2:{ rewrite HG, linear_hint. rewrite (proj2 (Z.leb_le 0 S0)) by auto. rewrite Z.min_l by lia. reflexivity. }
  rewrite enc_mul, enc_add, enc_sub by auto.
  pose proof (pow2_pos (rounded c nb)). pose proof (pow2_pos (rounded c kappa)). pose proof nb_le.
  assert (0 <= pow2 (rounded c nb) * pow2 kappa) by (apply Z.mul_nonneg_nonneg; lia).
  rewrite run_bind, rn_rc; auto; try lia. rewrite run_bind, rn_rc; auto.
Qed.
End R.
