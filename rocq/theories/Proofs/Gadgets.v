From Coq Require Import ZArith List Bool Lia Znumtheory.
From Verif Require Import Spec.Numbers Model.Builder Model.Gadgets Proofs.Builder Proofs.RangeCheck.
Import ListNotations.
Local Open Scope Z_scope.

(** Integers close enough with the same residue are equal. *)
Lemma enc_inj p x y : 0 < p -> enc p x = enc p y -> - p < x - y < p -> x = y.
Proof.
  unfold enc. intros Hp E B.
  assert (D : (x - y) mod p = 0) by (rewrite Zminus_mod, E, Z.sub_diag; apply Zmod_0_l).
  apply Z.mod_divide in D; [|lia]. destruct D as (k & Hk).
  assert (k = 0) by nia. lia.
Qed.

Lemma enc_range p x : 0 < p -> 0 <= enc p x < p.
Proof. intros. apply Z.mod_pos_bound; auto. Qed.

Lemma enc_id p a : 0 <= a < p -> enc p a = a.
Proof. apply Z.mod_small. Qed.

Lemma fits_diff s x a : signed_fits s x -> signed_fits s a ->
  - pow2 (s + 1) < x - a < pow2 (s + 1).
Proof.
  unfold signed_fits. fold (pow2 s). rewrite pow2_add. change (pow2 1) with 2.
  change (2 ^ Z.of_nat s) with (pow2 s). lia.
Qed.

Lemma fits_pow s x : signed_fits s x -> - pow2 (s + 1) < x < pow2 (s + 1).
Proof.
  unfold signed_fits. rewrite pow2_add. change (pow2 1) with 2.
  change (2 ^ Z.of_nat s) with (pow2 s). pose proof (pow2_pos s). lia.
Qed.

Section G.
Variable p : Z.
Hypothesis Hprime : prime p.
Variable c : nat.
Hypothesis Hc : (0 < c)%nat.
Variable F : nat -> list (list Z).
Notation acc := (accepts p (table_rows c F)).

Lemma p_pos : 0 < p.
Proof using Hprime. apply Z.lt_le_trans with 2; [reflexivity | apply prime_ge_2; exact Hprime]. Qed.
Local Hint Resolve p_pos : core.

Lemma add_enc x y : add p (enc p x) (enc p y) = enc p (x + y).
Proof. unfold add, enc. symmetry. apply Zplus_mod. Qed.
Lemma sub_enc x y : sub p (enc p x) (enc p y) = enc p (x - y).
Proof. unfold sub, enc. symmetry. apply Zminus_mod. Qed.
Lemma mul_enc x y : mul p (enc p x) (enc p y) = enc p (x * y).
Proof. unfold mul, enc. symmetry. apply Zmult_mod. Qed.
Lemma const_enc x : const p x = enc p x.
Proof. reflexivity. Qed.

(** The accepted values of a lookup range check, as signed integers. *)
Lemma rc_enc n z : width_ok c n -> pow2 (rounded c n) <= p ->
  acc (range_check p c (enc p z) n) tt <->
  exists x, pow2 n - pow2 (rounded c n) <= x < pow2 n /\ enc p z = enc p x.
Proof.
  intros Hw Hr. apply range_check_interval; auto. apply enc_range; auto.
Qed.

(** Exact case, on integers small compared with the modulus. *)
Lemma rc_exact_signed n z : width_ok c n -> (n mod c = 0)%nat ->
  pow2 n <= p -> - (p - pow2 n) <= z < pow2 n ->
  acc (range_check p c (enc p z) n) tt <-> 0 <= z.
Proof.
  intros Hw Hd Hr Hz. rewrite rc_enc by (rewrite ?rounded_exact; auto).
  rewrite (rounded_exact c n Hd), Z.sub_diag. split.
  - intros (x & Hx & E). apply enc_inj in E; auto; lia.
  - intros H. exists z. split; [lia | reflexivity].
Qed.

(** Slack: small negative numbers pass when the chunk width does not divide. *)
Lemma rc_slack n z : width_ok c n -> pow2 (rounded c n) <= p ->
  pow2 n - pow2 (rounded c n) <= z < pow2 n ->
  acc (range_check p c (enc p z) n) tt.
Proof. intros Hw Hr Hz. rewrite rc_enc; auto. exists z. auto. Qed.

(* ------------------------------------------------------------------ *)
(** ** Selector gadgets *)

Lemma acc_bool_hint h ins (k : Z -> prog Z) y :
  acc (bind (hint1 h ins) (fun b => bind (assert_bool p b) (fun _ => k b))) y <->
  acc (k 0) y \/ acc (k 1) y.
Proof.
  pose proof (prime_ge_2 _ Hprime).
  rewrite accepts_bind. split.
  - intros (b & H1 & H2). apply accepts_hint1 in H1.
    rewrite accepts_bind in H2. destruct H2 as (u & H2 & H3).
    apply accepts_assert_bool in H2; auto. destruct H2; subst; auto.
  - intros [K|K].
    + exists 0. split; [apply accepts_hint1; lia|]. rewrite accepts_bind. exists tt.
      split; auto. apply accepts_assert_bool; auto; lia.
    + exists 1. split; [apply accepts_hint1; lia|]. rewrite accepts_bind. exists tt.
      split; auto. apply accepts_assert_bool; auto; lia.
Qed.

Lemma acc_rc_ret v n (r y : Z) :
  acc (bind (range_check p c v n) (fun _ => Ret r)) y <->
  acc (range_check p c v n) tt /\ r = y.
Proof.
  rewrite accepts_bind. split.
  - intros ([] & H1 & H2). auto.
  - intros (H1 & H2). exists tt. auto.
Qed.

Lemma sel0 : sub p (add p 0 0) (const p 1) = enc p (-1).
Proof. unfold sub, add, const, enc. rewrite <- Zminus_mod. reflexivity. Qed.
Lemma sel1 : sub p (add p 1 1) (const p 1) = enc p 1.
Proof. unfold sub, add, const, enc. rewrite <- Zminus_mod. reflexivity. Qed.
Lemma mul0 z : mul p 0 (enc p z) = enc p 0.
Proof. reflexivity. Qed.
Lemma mul1 z : mul p 1 (enc p z) = enc p z.
Proof. unfold mul, enc. rewrite Z.mul_1_l. apply Zmod_mod. Qed.

(** What the two-input max accepts: either selector, provided its range check passes. *)
Lemma max2_acc s off x a y :
  acc (constrained_max_2 p c s off (enc p x) (enc p a)) y <->
  (acc (range_check p c (enc p (a - x)) (s + 1)) tt /\ y = enc p a) \/
  (acc (range_check p c (enc p (x - a)) (s + 1)) tt /\ y = enc p x).
Proof.
  unfold constrained_max_2, unconstrained_greater_eq. rewrite acc_bool_hint, !acc_rc_ret.
  rewrite ?sub_enc, sel0, sel1, ?mul0, ?mul1, ?mul_enc, ?add_enc, ?sub_enc.
  replace (-1 * (x - a)) with (a - x) by ring.
  replace (1 * (x - a)) with (x - a) by ring.
  replace (a + 0) with a by ring.
  replace (a + (x - a)) with x by ring.
  intuition.
Qed.

Lemma min2_acc s off x a y :
  acc (constrained_min_2 p c s off (enc p x) (enc p a)) y <->
  (acc (range_check p c (enc p (x - a)) (s + 1)) tt /\ y = enc p a) \/
  (acc (range_check p c (enc p (a - x)) (s + 1)) tt /\ y = enc p x).
Proof.
  unfold constrained_min_2, unconstrained_greater_eq. rewrite acc_bool_hint, !acc_rc_ret.
  rewrite ?sub_enc, sel0, sel1, ?mul0, ?mul1, ?mul_enc, ?add_enc, ?sub_enc.
  replace (-1 * (a - x)) with (x - a) by ring.
  replace (1 * (a - x)) with (a - x) by ring.
  replace (a - 0) with a by ring.
  replace (a - (a - x)) with x by ring.
  intuition.
Qed.

Lemma relu_acc s off x y :
  acc (constrained_relu p c s off (enc p x)) y <->
  (acc (range_check p c (enc p (- x)) (s + 1)) tt /\ y = 0) \/
  (acc (range_check p c (enc p x) (s + 1)) tt /\ y = enc p x).
Proof.
  unfold constrained_relu, unconstrained_greater_eq. rewrite acc_bool_hint, !acc_rc_ret.
  assert (E0 : mul p 0 (enc p x) = enc p 0) by (unfold mul; rewrite Z.mul_0_l; reflexivity).
  assert (E1 : mul p 1 (enc p x) = enc p x).
  { unfold mul, enc. rewrite Z.mul_1_l. apply Zmod_mod. }
  rewrite E0, E1, !add_enc, !sub_enc.
  replace (0 + 0 - x) with (- x) by ring. replace (x + x - x) with x by ring.
  change (enc p 0) with 0. intuition.
Qed.

Section Exact.
Variable s : nat.
Hypothesis Hw : width_ok c (s + 1).
Hypothesis Hd : ((s + 1) mod c = 0)%nat.
Hypothesis Hsz : 2 * pow2 (s + 1) <= p.

Lemma rc_sgn z : - pow2 (s + 1) <= z < pow2 (s + 1) ->
  acc (range_check p c (enc p z) (s + 1)) tt <-> 0 <= z.
Proof.
  intros Hz. pose proof (pow2_pos (s + 1)). apply rc_exact_signed; auto; lia.
Qed.

Theorem max2_exact off x a y : signed_fits s x -> signed_fits s a ->
  acc (constrained_max_2 p c s off (enc p x) (enc p a)) y <-> y = enc p (Z.max x a).
Proof.
  intros Hx Ha. pose proof (fits_diff s x a Hx Ha). rewrite max2_acc, !rc_sgn by lia.
  split.
  - intros [[H1 ->]|[H1 ->]]; f_equal; lia.
  - intros ->. destruct (Z.max_spec x a) as [[? ->]|[? ->]]; [left|right]; split; auto; lia.
Qed.

Theorem min2_exact off x a y : signed_fits s x -> signed_fits s a ->
  acc (constrained_min_2 p c s off (enc p x) (enc p a)) y <-> y = enc p (Z.min x a).
Proof.
  intros Hx Ha. pose proof (fits_diff s x a Hx Ha). rewrite min2_acc, !rc_sgn by lia.
  split.
  - intros [[H1 ->]|[H1 ->]]; f_equal; lia.
  - intros ->. destruct (Z.min_spec x a) as [[? ->]|[? ->]]; [right|left]; split; auto; lia.
Qed.

Theorem relu_exact off x y : - pow2 (s + 1) < x < pow2 (s + 1) ->
  acc (constrained_relu p c s off (enc p x)) y <-> y = enc p (relu x).
Proof.
  intros Hx. rewrite relu_acc, !rc_sgn by lia. unfold relu.
  destruct (Z.leb_spec 0 x).
  - split.
    + intros [[H1 ->]|[H1 ->]]; auto. assert (x = 0) by lia. subst. reflexivity.
    + intros ->. right. split; auto; lia.
  - split.
    + intros [[H1 ->]|[H1 ->]]; auto. lia.
    + intros ->. left. split; auto; lia.
Qed.

Theorem clip_exact off x lo hi y : signed_fits s x ->
  (forall a, lo = Some a -> signed_fits s a) -> (forall b, hi = Some b -> signed_fits s b) ->
  acc (constrained_clip p c s off (enc p x) (option_map (enc p) lo) (option_map (enc p) hi)) y <->
  y = enc p (clip lo hi x).
Proof.
  intros Hx Hlo Hhi. unfold constrained_clip. rewrite accepts_bind.
  assert (Hy : signed_fits s (match lo with Some a => Z.max x a | None => x end)).
  { destruct lo as [a|]; auto. specialize (Hlo a eq_refl). unfold signed_fits in *. lia. }
  assert (H1 : forall v, acc (match option_map (enc p) lo with
      | Some a => constrained_max_2 p c s off (enc p x) a | None => Ret (enc p x) end) v <->
      v = enc p (match lo with Some a => Z.max x a | None => x end)).
  { intros v. destruct lo as [a|]; cbn [option_map].
    - apply max2_exact; auto.
    - rewrite accepts_ret. intuition. }
  unfold clip. set (m := match lo with Some a => Z.max x a | None => x end) in *.
  split.
  - intros (v & Hv & Hk). apply H1 in Hv. subst v.
    destruct hi as [b|]; cbn [option_map] in Hk.
    + apply min2_exact in Hk; auto.
    + apply accepts_ret in Hk. auto.
  - intros ->. exists (enc p m). split; [apply H1; auto|].
    destruct hi as [b|]; cbn [option_map].
    + apply min2_exact; auto.
    + apply accepts_ret. auto.
Qed.

(** ** General max / min *)

Lemma delta_loop_acc (d : Z -> Z) prod vs r :
  acc (delta_loop p c d (s + 1) prod vs) r ->
  Forall (fun x => acc (range_check p c (d x) (s + 1)) tt) vs /\
  r = fold_left (fun q x => mul p q (d x)) vs prod.
Proof.
  revert prod. induction vs as [|x vs IH]; intros prod H; cbn in *.
  - split; auto.
  - apply accepts_bind in H as ([] & H1 & H2). apply IH in H2 as (H2 & H3).
    split; auto.
Qed.

Lemma delta_loop_acc_conv (d : Z -> Z) prod vs :
  Forall (fun x => acc (range_check p c (d x) (s + 1)) tt) vs ->
  acc (delta_loop p c d (s + 1) prod vs) (fold_left (fun q x => mul p q (d x)) vs prod).
Proof.
  intros H. revert prod. induction H as [|x vs Hx H IH]; intros prod; cbn.
  - reflexivity.
  - apply accepts_bind. exists tt. auto.
Qed.

Lemma mul_zero x y : 0 <= x < p -> 0 <= y < p -> mul p x y = 0 -> x = 0 \/ y = 0.
Proof.
  intros Hx Hy E. unfold mul in E. apply Z.mod_divide in E; [|pose proof p_pos; lia].
  apply prime_mult in E; auto.
  destruct E as [E|E]; apply Z.mod_divide in E; try (pose proof p_pos; lia);
    rewrite Z.mod_small in E by auto; auto.
Qed.

Lemma prod_zero (d : Z -> Z) prod vs : 0 <= prod < p -> (forall x, 0 <= d x < p) ->
  fold_left (fun q x => mul p q (d x)) vs prod = 0 -> prod = 0 \/ exists x, In x vs /\ d x = 0.
Proof.
  intros Hprod Hdx. revert prod Hprod. induction vs as [|x vs IH]; intros prod Hprod E; cbn in E.
  - auto.
  - apply IH in E; [|apply Z.mod_pos_bound; auto].
    destruct E as [E|(z & Hz & E)].
    + apply mul_zero in E; auto. destruct E; auto. right. exists x. split; [left|]; auto.
    + right. exists z. split; [right|]; auto.
Qed.

Lemma prod_zero_conv (d : Z -> Z) prod vs :
  (exists x, In x vs /\ d x = 0) \/ prod = 0 -> fold_left (fun q x => mul p q (d x)) vs prod = 0.
Proof.
  revert prod. induction vs as [|x vs IH]; intros prod H; cbn.
  - destruct H as [(x & [] & _)|H]; auto.
  - apply IH. destruct H as [(z & [->|Hz] & E)| ->].
    + right. rewrite E. unfold mul. rewrite Z.mul_0_r. apply Zmod_0_l.
    + left. exists z; auto.
    + right. reflexivity.
Qed.

(** the hint-only loops accept any field element *)
Lemma hint1_conv h ins v : 0 <= v < p -> acc (hint1 h ins) v.
Proof. intros. apply accepts_hint1; auto. Qed.

Lemma umax_reach cur w vs y : 0 <= y < p -> acc (umax_loop p cur (w :: vs)) y.
Proof.
  intros Hy. pose proof p_pos. revert cur w. induction vs as [|v vs IH]; intros cur w.
  - cbn [umax_loop].
    do 4 (apply accepts_bind; exists 0; split; [apply hint1_conv; lia|]).
    apply accepts_bind. exists y. split; [apply hint1_conv; auto|]. reflexivity.
  - cbn [umax_loop] in *.
    do 5 (apply accepts_bind; exists 0; split; [apply hint1_conv; lia|]).
    apply IH.
Qed.

Lemma umin_reach cur w vs y : 0 <= y < p -> acc (umin_loop p cur (w :: vs)) y.
Proof.
  intros Hy. pose proof p_pos. revert cur w. induction vs as [|v vs IH]; intros cur w.
  - cbn [umin_loop].
    do 4 (apply accepts_bind; exists 0; split; [apply hint1_conv; lia|]).
    apply accepts_bind. exists y. split; [apply hint1_conv; auto|]. reflexivity.
  - cbn [umin_loop] in *.
    do 5 (apply accepts_bind; exists 0; split; [apply hint1_conv; lia|]).
    apply IH.
Qed.

Lemma is_max_unique l m m' : is_max l m -> is_max l m' -> m = m'.
Proof. intros (H1 & H2) (H3 & H4). specialize (H2 _ H3). specialize (H4 _ H1). lia. Qed.
Lemma is_min_unique l m m' : is_min l m -> is_min l m' -> m = m'.
Proof. intros (H1 & H2) (H3 & H4). specialize (H2 _ H3). specialize (H4 _ H1). lia. Qed.

(** the product test and the delta range checks, for an accepted value [m] *)
Lemma max_core vs m : 0 <= m < p -> Forall (signed_fits s) vs ->
  acc (bind (delta_loop p c (fun x => sub p m x) (s + 1) (const p 1) (map (enc p) vs))
         (fun prod => bind (assert_zero prod) (fun _ => Ret m))) m <->
  exists z, is_max vs z /\ m = enc p z.
Proof.
  intros Hm Hvs. rewrite accepts_bind. pose proof (prime_ge_2 _ Hprime).
  rewrite Forall_forall in Hvs. split.
  - intros (prod & H1 & H2). apply delta_loop_acc in H1 as (H1 & ->).
    acc_step. apply accepts_assert_zero in Ha.
    apply prod_zero in Ha; [|apply enc_range; auto|intros; apply enc_range; auto].
    destruct Ha as [Ha|(x & Hx & Ha)].
    { unfold const in Ha. rewrite Z.mod_small in Ha by lia. lia. }
    apply in_map_iff in Hx as (z & <- & Hz).
    rewrite <- (enc_id p m Hm), sub_enc in Ha.
    assert (Ez : m = enc p z).
    { rewrite <- (enc_id p m Hm). unfold enc in *.
      apply Z.mod_divide in Ha; [|lia]. destruct Ha as (k & Hk0).
      replace m with (z + k * p) by lia. apply Z_mod_plus_full. }
    exists z. split; auto. split; auto. intros w Hw'.
    rewrite Forall_forall in H1. specialize (H1 (enc p w) (in_map _ _ _ Hw')).
    rewrite Ez, sub_enc in H1. pose proof (fits_diff s z w (Hvs _ Hz) (Hvs _ Hw')).
    apply rc_sgn in H1; lia.
  - intros (z & (Hz & Hmax) & ->).
    eexists. split.
    + apply delta_loop_acc_conv. rewrite Forall_forall. intros x Hx.
      apply in_map_iff in Hx as (w & <- & Hw'). rewrite sub_enc.
      pose proof (fits_diff s z w (Hvs _ Hz) (Hvs _ Hw')). specialize (Hmax _ Hw').
      apply rc_sgn; lia.
    + apply accepts_bind. exists tt. split; [|reflexivity].
      apply accepts_assert_zero. apply prod_zero_conv. left. exists (enc p z).
      split; [apply in_map; auto|]. unfold sub. rewrite Z.sub_diag. apply Zmod_0_l.
Qed.

Lemma min_core vs m : 0 <= m < p -> Forall (signed_fits s) vs ->
  acc (bind (delta_loop p c (fun x => sub p x m) (s + 1) (const p 1) (map (enc p) vs))
         (fun prod => bind (assert_zero prod) (fun _ => Ret m))) m <->
  exists z, is_min vs z /\ m = enc p z.
Proof.
  intros Hm Hvs. rewrite accepts_bind. pose proof (prime_ge_2 _ Hprime).
  rewrite Forall_forall in Hvs. split.
  - intros (prod & H1 & H2). apply delta_loop_acc in H1 as (H1 & ->).
    acc_step. apply accepts_assert_zero in Ha.
    apply prod_zero in Ha; [|apply enc_range; auto|intros; apply enc_range; auto].
    destruct Ha as [Ha|(x & Hx & Ha)].
    { unfold const in Ha. rewrite Z.mod_small in Ha by lia. lia. }
    apply in_map_iff in Hx as (z & <- & Hz).
    rewrite <- (enc_id p m Hm), sub_enc in Ha.
    assert (Ez : m = enc p z).
    { rewrite <- (enc_id p m Hm). unfold enc in *.
      apply Z.mod_divide in Ha; [|lia]. destruct Ha as (k & Hk0).
      replace z with (m + k * p) by lia. symmetry. apply Z_mod_plus_full. }
    exists z. split; auto. split; auto. intros w Hw'.
    rewrite Forall_forall in H1. specialize (H1 (enc p w) (in_map _ _ _ Hw')).
    rewrite Ez, sub_enc in H1. pose proof (fits_diff s w z (Hvs _ Hw') (Hvs _ Hz)).
    apply rc_sgn in H1; lia.
  - intros (z & (Hz & Hmax) & ->).
    eexists. split.
    + apply delta_loop_acc_conv. rewrite Forall_forall. intros x Hx.
      apply in_map_iff in Hx as (w & <- & Hw'). rewrite sub_enc.
      pose proof (fits_diff s w z (Hvs _ Hw') (Hvs _ Hz)). specialize (Hmax _ Hw').
      apply rc_sgn; lia.
    + apply accepts_bind. exists tt. split; [|reflexivity].
      apply accepts_assert_zero. apply prod_zero_conv. left. exists (enc p z).
      split; [apply in_map; auto|]. unfold sub. rewrite Z.sub_diag. apply Zmod_0_l.
Qed.

Lemma core_ret (d : prog Z) (m y : Z) :
  acc (bind d (fun prod => bind (assert_zero prod) (fun _ => Ret m))) y -> y = m.
Proof.
  intros H. apply accepts_bind in H as (u & _ & H). apply accepts_bind in H as (v & _ & H).
  cbn in H. auto.
Qed.

Lemma sub_add_enc z o : sub p (add p z o) o = enc p z.
Proof. unfold sub, add, enc. rewrite Zminus_mod_idemp_l. f_equal. ring. Qed.

Theorem max_exact off vs y : vs <> [] -> Forall (signed_fits s) vs ->
  acc (constrained_max p c s off (map (enc p) vs)) y <-> exists z, is_max vs z /\ y = enc p z.
Proof.
  intros Hne Hvs. pose proof p_pos.
  destruct vs as [|x [|a [|b vs]]]; [congruence| | |].
  - (* one element *)
    unfold constrained_max. cbn [map]. unfold unconstrained_max. cbn [umax_loop].
    cbn [bind]. rewrite sub_add_enc. change (enc p (enc p x)) with ((x mod p) mod p).
    rewrite Zmod_mod. change (x mod p) with (enc p x).
    pose proof (max_core [x] (enc p x) (enc_range _ _ p_pos) Hvs) as C.
    split.
    + intros HA. assert (y = enc p x) as ->.
      { apply core_ret in HA. auto. }
      apply C in HA. auto.
    + intros (z & Hz & ->). assert (z = x) as -> by (destruct Hz as ([->|[]] & _); auto).
      apply C. eauto.
  - cbn [map constrained_max]. inversion Hvs as [|? ? Hx H1]; subst.
    inversion H1 as [|? ? Ha H2]; subst. rewrite max2_exact; auto. split.
    + intros ->. exists (Z.max x a). split; auto. split.
      * cbn. destruct (Z.max_spec x a) as [[_ ->]|[_ ->]]; auto.
      * intros w [<-|[<-|[]]]; lia.
    + intros (z & Hz & ->). f_equal. apply (is_max_unique [x; a]); auto. split.
      * cbn. destruct (Z.max_spec x a) as [[_ ->]|[_ ->]]; auto.
      * intros w [<-|[<-|[]]]; lia.
  - set (l := x :: a :: b :: vs) in *.
    change (constrained_max p c s off (map (enc p) l)) with
      (bind (unconstrained_max p (map (fun v => add p v off) (map (enc p) l))) (fun mo =>
         let m := sub p mo off in
         bind (delta_loop p c (fun x => sub p m x) (s + 1) (const p 1) (map (enc p) l))
           (fun prod => bind (assert_zero prod) (fun _ => Ret m)))).
    rewrite accepts_bind. split.
    + intros (mo & H1 & H2). cbv zeta in H2.
      assert (E : y = sub p mo off).
      { apply core_ret in H2. auto. }
      rewrite <- E in H2. apply max_core in H2; auto.
      rewrite E. apply enc_range; auto.
    + intros Hz. assert (Hy : 0 <= y < p).
      { destruct Hz as (z & _ & ->). apply enc_range; auto. }
      exists (add p y off). split.
      * unfold l. cbn [map unconstrained_max]. apply umax_reach. apply enc_range; auto.
      * cbv zeta. rewrite sub_add_enc, (enc_id p y Hy). apply max_core; auto.
Qed.

Theorem min_exact off vs y : vs <> [] -> Forall (signed_fits s) vs ->
  acc (constrained_min p c s off (map (enc p) vs)) y <-> exists z, is_min vs z /\ y = enc p z.
Proof.
  intros Hne Hvs. pose proof p_pos.
  destruct vs as [|x [|a [|b vs]]]; [congruence| | |].
  - (* one element *)
    unfold constrained_min. cbn [map]. unfold unconstrained_min. cbn [umin_loop].
    cbn [bind]. rewrite sub_add_enc. change (enc p (enc p x)) with ((x mod p) mod p).
    rewrite Zmod_mod. change (x mod p) with (enc p x).
    pose proof (min_core [x] (enc p x) (enc_range _ _ p_pos) Hvs) as C.
    split.
    + intros HA. assert (y = enc p x) as ->.
      { apply core_ret in HA. auto. }
      apply C in HA. auto.
    + intros (z & Hz & ->). assert (z = x) as -> by (destruct Hz as ([->|[]] & _); auto).
      apply C. eauto.
  - cbn [map constrained_min]. inversion Hvs as [|? ? Hx H1]; subst.
    inversion H1 as [|? ? Ha H2]; subst. rewrite min2_exact; auto. split.
    + intros ->. exists (Z.min x a). split; auto. split.
      * cbn. destruct (Z.min_spec x a) as [[_ ->]|[_ ->]]; auto.
      * intros w [<-|[<-|[]]]; lia.
    + intros (z & Hz & ->). f_equal. apply (is_min_unique [x; a]); auto. split.
      * cbn. destruct (Z.min_spec x a) as [[_ ->]|[_ ->]]; auto.
      * intros w [<-|[<-|[]]]; lia.
  - set (l := x :: a :: b :: vs) in *.
    change (constrained_min p c s off (map (enc p) l)) with
      (bind (unconstrained_min p (map (fun v => add p v off) (map (enc p) l))) (fun mo =>
         let m := sub p mo off in
         bind (delta_loop p c (fun x => sub p x m) (s + 1) (const p 1) (map (enc p) l))
           (fun prod => bind (assert_zero prod) (fun _ => Ret m)))).
    rewrite accepts_bind. split.
    + intros (mo & H1 & H2). cbv zeta in H2.
      assert (E : y = sub p mo off).
      { apply core_ret in H2. auto. }
      rewrite <- E in H2. apply min_core in H2; auto.
      rewrite E. apply enc_range; auto.
    + intros Hz. assert (Hy : 0 <= y < p).
      { destruct Hz as (z & _ & ->). apply enc_range; auto. }
      exists (add p y off). split.
      * unfold l. cbn [map unconstrained_min]. apply umin_reach. apply enc_range; auto.
      * cbv zeta. rewrite sub_add_enc, (enc_id p y Hy). apply min_core; auto.
Qed.

End Exact.

(** ** Slack: what the selector gadgets accept when the chunk width does not
    divide the bit width *)
Section Slack.
Variable s : nat.
Hypothesis Hw : width_ok c (s + 1).
Hypothesis Hr : pow2 (rounded c (s + 1)) <= p.

Definition slack : Z := pow2 (rounded c (s + 1)) - pow2 (s + 1).

Lemma rc_free z : - slack <= z < pow2 (s + 1) -> acc (range_check p c (enc p z) (s + 1)) tt.
Proof. intros Hz. apply rc_slack; auto. unfold slack in Hz. lia. Qed.

(** any difference within the slack: both inputs are accepted as maximum *)
Theorem max2_free off x a y : Z.abs (x - a) <= slack -> Z.abs (x - a) < pow2 (s + 1) ->
  acc (constrained_max_2 p c s off (enc p x) (enc p a)) y <-> y = enc p a \/ y = enc p x.
Proof.
  intros H1 H2. rewrite max2_acc. split.
  - intros [[_ ->]|[_ ->]]; auto.
  - intros [-> | ->]; [left|right]; split; auto; apply rc_free; lia.
Qed.

Theorem min2_free off x a y : Z.abs (x - a) <= slack -> Z.abs (x - a) < pow2 (s + 1) ->
  acc (constrained_min_2 p c s off (enc p x) (enc p a)) y <-> y = enc p a \/ y = enc p x.
Proof.
  intros H1 H2. rewrite min2_acc. split.
  - intros [[_ ->]|[_ ->]]; auto.
  - intros [-> | ->]; [left|right]; split; auto; apply rc_free; lia.
Qed.

Theorem relu_free off x y : Z.abs x <= slack -> Z.abs x < pow2 (s + 1) ->
  acc (constrained_relu p c s off (enc p x)) y <-> y = 0 \/ y = enc p x.
Proof.
  intros H1 H2. rewrite relu_acc. split.
  - intros [[_ ->]|[_ ->]]; auto.
  - intros [-> | ->]; [left|right]; split; auto; apply rc_free; lia.
Qed.

(** the result of a selector gadget is always one of its candidates *)
Theorem relu_candidates off x y :
  acc (constrained_relu p c s off (enc p x)) y -> y = 0 \/ y = enc p x.
Proof. rewrite relu_acc. intuition. Qed.

End Slack.

End G.
