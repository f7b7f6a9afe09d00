From Coq Require Import ZArith List Bool Znumtheory Lia.
From Verif Require Import Spec.Numbers Base.Pocklington Model.Builder Model.Gadgets Model.Compare Proofs.Builder
  Proofs.RangeCheck Proofs.Gadgets Proofs.Division Proofs.BitRange.
Import ListNotations.
Local Open Scope Z_scope.

Section C.
Variable p : Z.
Hypothesis Hprime : prime p.
Variable T : tableid -> list Z -> Prop.
Variable Tb : tableid -> list Z -> bool.
Notation acc := (accepts p T).
Notation rn := (run honest_hint Tb).

Lemma p2 : 2 <= p. Proof. apply prime_ge_2; auto. Qed.

Lemma run_assert_bool b : b = 0 \/ b = 1 -> rn (assert_bool p b) = Some tt.
Proof.
  pose proof p2. unfold assert_bool, mul, sub. intros [->| ->]; cbn [run];
    rewrite ?Z.mul_0_l, ?Z.mul_1_l, ?Z.sub_diag, ?Zmod_0_l; reflexivity.
Qed.

Lemma tb_step s cf b d :
  (add p s (mul p cf b) + add p cf cf * d) mod p = (s + cf * (b + pow2 1 * d)) mod p.
Proof.
  unfold add, mul. rewrite Zplus_mod_idemp_r.
  rewrite (Zplus_mod (_ mod p)), Zmod_mod, Zmult_mod_idemp_l, <- Zplus_mod.
  change (pow2 1) with 2. f_equal. ring.
Qed.

Lemma tb_sum_acc s cf bits r : 0 <= s < p -> Forall (fun v => 0 <= v < p) bits ->
  acc (to_binary_sum p s cf bits) r <-> Forall bit bits /\ r = (s + cf * dval 1 bits) mod p.
Proof.
  pose proof p2 as H2. revert s cf. induction bits as [|b bits IH]; intros s cf Hs Hf.
  - cbn [to_binary_sum dval]. rewrite accepts_ret, Z.mul_0_r, Z.add_0_r, Z.mod_small by auto. intuition.
  - inversion Hf; subst. cbn [to_binary_sum dval]. rewrite accepts_bind. split.
    + intros ([] & Hb & H). apply accepts_assert_bool in Hb; auto.
      apply IH in H; auto; [|apply Z.mod_pos_bound; lia]. destruct H as (Hbs & ->).
      split; [constructor; auto|]. apply tb_step.
    + intros (Hb & ->). inversion Hb; subst. exists tt. split; [apply accepts_assert_bool; auto|].
      apply IH; auto; [apply Z.mod_pos_bound; lia|]. split; auto. symmetry. apply tb_step.
Qed.

Lemma tb_sum_run s cf bits : 0 <= s < p -> Forall bit bits ->
  rn (to_binary_sum p s cf bits) = Some ((s + cf * dval 1 bits) mod p).
Proof.
  pose proof p2 as H2. intros Hs Hb. revert s cf Hs. induction Hb as [|b bits Hb Hbs IH]; intros s cf Hs.
  - cbn. now rewrite Z.mul_0_r, Z.add_0_r, Z.mod_small.
  - cbn [to_binary_sum dval]. rewrite run_bind, run_assert_bool by auto.
    rewrite IH by (apply Z.mod_pos_bound; lia). now rewrite tb_step.
Qed.

Lemma sub_zero x y : 0 <= x < p -> 0 <= y < p -> sub p x y = 0 <-> x = y.
Proof.
  intros Hx Hy. unfold sub. split.
  - intros E. apply Z.mod_divide in E; [|lia]. destruct E as (k & Hk). assert (k = 0) by nia. lia.
  - intros ->. now rewrite Z.sub_diag, Zmod_0_l.
Qed.

Lemma one_mod : const p 1 = 1.
Proof. pose proof p2. apply Z.mod_small. lia. Qed.

(** Any n-bit representative of [x] may be supplied. *)
Lemma to_binary_acc x n bits : 0 <= x < p ->
  acc (to_binary p x n) bits <->
  exists X, 0 <= X < pow2 n /\ X mod p = x /\ bits = bits_of X n.
Proof.
  intros Hx. pose proof p2 as H2. unfold to_binary. rewrite accepts_bind. split.
  - intros (bs & Hb & H). apply accepts_hintn in Hb as (Hl & Hf).
    apply accepts_bind in H as (sm & Hs & H). apply accepts_bind in H as ([] & Hz & H).
    apply accepts_assert_zero in Hz. apply accepts_ret in H. subst bs.
    apply tb_sum_acc in Hs; auto; [|apply Z.mod_pos_bound; lia]. destruct Hs as (Hbit & ->).
    apply (proj1 (sub_zero x _ Hx (Z.mod_pos_bound _ p ltac:(lia)))) in Hz.
    rewrite one_mod in Hz. unfold const in Hz. rewrite Zmod_0_l, Z.add_0_l, Z.mul_1_l in Hz.
    exists (dval 1 bits). pose proof (bit_dval_bound _ Hbit) as Hd. rewrite Hl in Hd.
    repeat split; auto; try lia. rewrite <- Hl. apply bits_unique; auto.
  - intros (X & HX & Hm & ->). exists (bits_of X n). split.
    + apply accepts_hintn. split; [apply bits_len|]. eapply Forall_impl; [|apply bits_bit].
      intros b [->| ->]; lia.
    + apply accepts_bind. exists x. split.
      * apply tb_sum_acc; [apply Z.mod_pos_bound; lia| |].
        { eapply Forall_impl; [|apply bits_bit]. intros b [->| ->]; lia. }
        split; [apply bits_bit|]. rewrite bits_val by auto. rewrite one_mod. unfold const.
        now rewrite Zmod_0_l, Z.add_0_l, Z.mul_1_l.
      * apply accepts_bind. exists tt. split; [|apply accepts_ret; auto].
        apply accepts_assert_zero. apply sub_zero; auto.
Qed.

Lemma to_binary_run x n : 0 <= x < p -> x < pow2 n -> rn (to_binary p x n) = Some (bits_of x n).
Proof.
  intros Hx Hn. pose proof p2 as H2. unfold to_binary. rewrite run_bind.
  assert (E : rn (hintn HToBinary [x] n) = Some (bits_of x n)).
  { unfold hintn. cbn [run honest_hint]. change (2 ^ Z.of_nat n) with (pow2 n).
    destruct (Z.ltb_spec x (pow2 n)); [|lia]. rewrite bits_len, Nat.eqb_refl. reflexivity. }
  rewrite E, run_bind, tb_sum_run; [|apply Z.mod_pos_bound; lia|apply bits_bit].
  rewrite bits_val by lia. rewrite one_mod. unfold const.
  rewrite Zmod_0_l, Z.add_0_l, Z.mul_1_l, (Z.mod_small x) by auto.
  rewrite run_bind. unfold assert_zero. cbn [run]. rewrite (proj2 (sub_zero x x Hx Hx) eq_refl). reflexivity.
Qed.

(** The comparison loop on boolean inputs is deterministic. *)
Definition bb (b : bool) : Z := if b then 1 else 0.

Lemma bb_bit b : bit (bb b). Proof. destruct b; [right|left]; reflexivity. Qed.
Lemma bb_range b : 0 <= bb b < p. Proof. pose proof p2. destruct b; cbn; lia. Qed.

Lemma nots b : sub p (const p 1) (bb b) = bb (negb b).
Proof.
  pose proof p2. rewrite one_mod. unfold sub. destruct b; cbn [bb negb].
  - now rewrite Z.sub_diag, Zmod_0_l.
  - rewrite Z.sub_0_r. apply Z.mod_small. lia.
Qed.

Lemma ands a b : mul p (bb a) (bb b) = bb (a && b).
Proof. pose proof p2. unfold mul. destruct a, b; cbn; first [reflexivity | apply Zmod_0_l | apply Z.mod_small; lia]. Qed.
Lemma ors a b : sub p (add p (bb a) (bb b)) (mul p (bb a) (bb b)) = bb (a || b).
Proof.
  pose proof p2. rewrite ands. unfold sub, add. rewrite Zminus_mod_idemp_l.
  destruct a, b; cbn; first [reflexivity | apply Zmod_0_l | apply Z.mod_small; lia].
Qed.
Lemma xors a b : sub p (add p (bb a) (bb b)) (mul p (const p 2) (mul p (bb a) (bb b))) = bb (xorb a b).
Proof.
  pose proof p2. rewrite ands. unfold sub, add, mul, const. rewrite Zmult_mod_idemp_l, Zminus_mod_idemp_l, Zminus_mod_idemp_r.
  destruct a, b; cbn; first [reflexivity | apply Zmod_0_l | apply Z.mod_small; lia].
Qed.

Lemma band_acc a b r : acc (band p (bb a) (bb b)) r <-> r = bb (a && b).
Proof.
  unfold band. rewrite accepts_bind. split.
  - intros ([] & _ & H). apply accepts_bind in H as ([] & _ & H). apply accepts_ret in H. subst. apply ands.
  - intros ->. exists tt. split; [apply accepts_assert_bool; auto using bb_range, bb_bit; apply bb_bit|].
    apply accepts_bind. exists tt. split; [apply accepts_assert_bool; auto using bb_range; apply bb_bit|].
    apply accepts_ret. apply ands.
Qed.
Lemma bor_acc a b r : acc (bor p (bb a) (bb b)) r <-> r = bb (a || b).
Proof.
  unfold bor. rewrite accepts_bind. split.
  - intros ([] & _ & H). apply accepts_bind in H as ([] & _ & H). apply accepts_ret in H. subst. apply ors.
  - intros ->. exists tt. split; [apply accepts_assert_bool; auto using bb_range; apply bb_bit|].
    apply accepts_bind. exists tt. split; [apply accepts_assert_bool; auto using bb_range; apply bb_bit|].
    apply accepts_ret. apply ors.
Qed.
Lemma bxor_acc a b r : acc (bxor p (bb a) (bb b)) r <-> r = bb (xorb a b).
Proof.
  unfold bxor. rewrite accepts_bind. split.
  - intros ([] & _ & H). apply accepts_bind in H as ([] & _ & H). apply accepts_ret in H. subst. apply xors.
  - intros ->. exists tt. split; [apply accepts_assert_bool; auto using bb_range; apply bb_bit|].
    apply accepts_bind. exists tt. split; [apply accepts_assert_bool; auto using bb_range; apply bb_bit|].
    apply accepts_ret. apply xors.
Qed.
Lemma band_run a b : rn (band p (bb a) (bb b)) = Some (bb (a && b)).
Proof.
  unfold band. rewrite run_bind, run_assert_bool by apply bb_bit.
  rewrite run_bind, run_assert_bool by apply bb_bit. cbn. now rewrite ands.
Qed.
Lemma bor_run a b : rn (bor p (bb a) (bb b)) = Some (bb (a || b)).
Proof.
  unfold bor. rewrite run_bind, run_assert_bool by apply bb_bit.
  rewrite run_bind, run_assert_bool by apply bb_bit. cbn [run]. now rewrite ors.
Qed.
Lemma bxor_run a b : rn (bxor p (bb a) (bb b)) = Some (bb (xorb a b)).
Proof.
  unfold bxor. rewrite run_bind, run_assert_bool by apply bb_bit.
  rewrite run_bind, run_assert_bool by apply bb_bit. cbn [run]. now rewrite xors.
Qed.

(** The value computed by the loop. *)
Fixpoint gt_val (res eq : bool) (bits : list (bool * bool)) : bool :=
  match bits with
  | [] => res
  | (x, y) :: r => gt_val (res || (eq && (x && negb y))) (eq && negb (xorb x y)) r
  end.

Definition enc2 (l : list (bool * bool)) : list (Z * Z) := map (fun xy => (bb (fst xy), bb (snd xy))) l.

Lemma gt_loop_acc res eq l r : acc (gt_loop p (bb res) (bb eq) (enc2 l)) r <-> r = bb (gt_val res eq l).
Proof.
  revert res eq. induction l as [|[x y] l IH]; intros res eq; cbn [enc2 map gt_loop gt_val fst snd].
  - rewrite accepts_ret. intuition.
  - rewrite nots. split.
    + intros H. apply accepts_bind in H as (g & Hg & H). apply band_acc in Hg. subst g.
      apply accepts_bind in H as (st & Hs & H). apply band_acc in Hs. subst st.
      apply accepts_bind in H as (rs & Hr & H). apply bor_acc in Hr. subst rs.
      apply accepts_bind in H as (df & Hd & H). apply bxor_acc in Hd. subst df.
      rewrite nots in H. apply accepts_bind in H as (se & Hse & H). apply band_acc in Hse. subst se.
      apply IH in H. exact H.
    + intros ->. apply accepts_bind. eexists. split; [apply band_acc; reflexivity|].
      apply accepts_bind. eexists. split; [apply band_acc; reflexivity|].
      apply accepts_bind. eexists. split; [apply bor_acc; reflexivity|].
      apply accepts_bind. eexists. split; [apply bxor_acc; reflexivity|].
      rewrite nots. apply accepts_bind. eexists. split; [apply band_acc; reflexivity|].
      apply IH. reflexivity.
Qed.

Lemma gt_loop_run res eq l : rn (gt_loop p (bb res) (bb eq) (enc2 l)) = Some (bb (gt_val res eq l)).
Proof.
  revert res eq. induction l as [|[x y] l IH]; intros res eq; cbn [enc2 map gt_loop gt_val fst snd]; [reflexivity|].
  rewrite nots, run_bind, band_run, run_bind, band_run, run_bind, bor_run, run_bind, bxor_run, nots.
  rewrite run_bind, band_run. apply IH.
Qed.
End C.

(** The loop computes the integer comparison. *)
Fixpoint bools_of (X : Z) (n : nat) : list bool :=
  match n with O => [] | S m => Z.odd X :: bools_of (X / 2) m end.

Lemma mod2_bb X : X mod 2 = bb (Z.odd X).
Proof. rewrite Zmod_odd. destruct (Z.odd X); reflexivity. Qed.

Lemma bits_bools X n : bits_of X n = map bb (bools_of X n).
Proof. revert X. induction n; intros; cbn; auto. rewrite mod2_bb. f_equal; auto. Qed.

Lemma gt_val_res bits eq : gt_val true eq bits = true.
Proof. revert eq. induction bits as [|[x y] l IH]; intros; cbn; auto. Qed.
Lemma gt_val_neq bits res : gt_val res false bits = res.
Proof. revert res. induction bits as [|[x y] l IH]; intros; cbn; auto. rewrite orb_false_r. auto. Qed.

Lemma gt_val_app l m res eq :
  gt_val res eq (l ++ m) = gt_val (gt_val res eq l) (eq && forallb (fun xy => negb (xorb (fst xy) (snd xy))) l) m.
Proof.
  revert res eq. induction l as [|[x y] l IH]; intros res eq; cbn [app gt_val forallb fst snd].
  - now rewrite andb_true_r.
  - rewrite IH. f_equal. now rewrite andb_assoc.
Qed.

Lemma bools_len X n : length (bools_of X n) = n.
Proof. revert X. induction n; cbn; auto. Qed.

Lemma gt_val_spec X Y n : 0 <= X < pow2 n -> 0 <= Y < pow2 n ->
  gt_val false true (rev (combine (bools_of X n) (bools_of Y n))) = (Y <? X) /\
  forallb (fun xy => negb (xorb (fst xy) (snd xy))) (rev (combine (bools_of X n) (bools_of Y n))) = (X =? Y).
Proof.
  revert X Y. induction n as [|n IH]; intros X Y HX HY.
  - change (pow2 0) with 1 in *. assert (X = 0) by lia. assert (Y = 0) by lia. subst. split; reflexivity.
  - rewrite pow2_S in *. cbn [bools_of combine rev].
    destruct (IH (X / 2) (Y / 2)) as (G & E).
    { split; [apply Z.div_pos; lia|apply Z.div_lt_upper_bound; lia]. }
    { split; [apply Z.div_pos; lia|apply Z.div_lt_upper_bound; lia]. }
    rewrite gt_val_app, forallb_app, G, E. cbn [gt_val forallb fst snd andb].
    rewrite andb_true_r.
    pose proof (Z.div_mod X 2) as DX. pose proof (Z.div_mod Y 2) as DY. rewrite !mod2_bb in *.
    set (x := X / 2) in *. set (y := Y / 2) in *. clearbody x y.
    destruct (Z.odd X), (Z.odd Y); cbn [bb] in *; cbn [negb andb xorb];
      rewrite ?andb_false_r, ?andb_true_r, ?orb_false_r;
      destruct (Z.ltb_spec y x), (Z.eqb_spec x y); cbn;
      split; symmetry; (apply Z.ltb_lt || apply Z.ltb_ge || apply Z.eqb_eq || apply Z.eqb_neq); lia.
Qed.

Lemma combine_bits X Y n :
  rev (combine (bits_of X n) (bits_of Y n)) = enc2 (rev (combine (bools_of X n) (bools_of Y n))).
Proof.
  rewrite !bits_bools. unfold enc2. rewrite map_rev. f_equal.
  generalize (bools_of X n) (bools_of Y n). induction l as [|a l IH]; intros [|b m]; cbn; auto. f_equal; auto.
Qed.

Section Main.
Variable p : Z.
Hypothesis Hprime : prime p.
Variable T : tableid -> list Z -> Prop.
Variable Tb : tableid -> list Z -> bool.

(** What [gt] accepts: the comparison of any two n-bit representatives. *)
Theorem gt_accepts n x y r : 0 <= x < p -> 0 <= y < p ->
  accepts p T (gt p n x y) r <->
  exists X Y, 0 <= X < pow2 n /\ 0 <= Y < pow2 n /\ X mod p = x /\ Y mod p = y /\ r = if Y <? X then 1 else 0.
Proof.
  intros Hx Hy. pose proof (p2 p Hprime) as H2. unfold gt. rewrite accepts_bind.
  assert (E0 : const p 0 = bb false) by (unfold const; apply Zmod_0_l).
  assert (E1 : const p 1 = bb true) by (apply one_mod; auto).
  rewrite E0, E1. split.
  - intros (xs & Hxs & H). apply to_binary_acc in Hxs as (X & HX & MX & ->); auto.
    apply accepts_bind in H as (ys & Hys & H). apply to_binary_acc in Hys as (Y & HY & MY & ->); auto.
    rewrite combine_bits in H. apply gt_loop_acc in H; auto.
    destruct (gt_val_spec X Y n HX HY) as (G & _). rewrite G in H.
    exists X, Y. repeat split; auto; try lia.
  - intros (X & Y & HX & HY & MX & MY & ->). exists (bits_of X n).
    split; [apply to_binary_acc; eauto|]. apply accepts_bind. exists (bits_of Y n).
    split; [apply to_binary_acc; eauto|]. rewrite combine_bits. apply gt_loop_acc; auto.
    destruct (gt_val_spec X Y n HX HY) as (G & _). now rewrite G.
Qed.

(** Witness generation compares canonical residues. *)
Theorem gt_honest n x y : 0 <= x < p -> 0 <= y < p -> p <= pow2 n ->
  run honest_hint Tb (gt p n x y) = Some (if y <? x then 1 else 0).
Proof.
  intros Hx Hy Hn. unfold gt. rewrite run_bind, to_binary_run by (auto; lia).
  rewrite run_bind, to_binary_run by (auto; lia).
  assert (E0 : const p 0 = bb false) by (unfold const; apply Zmod_0_l).
  assert (E1 : const p 1 = bb true) by (apply one_mod; auto).
  rewrite E0, E1, combine_bits, gt_loop_run by auto.
  destruct (gt_val_spec x y n) as (G & _); try lia. now rewrite G.
Qed.

(** Unique representatives: the comparison is determined. *)
Theorem gt_unique n x y r : 0 <= x < p -> 0 <= y < p -> p <= pow2 n < 2 * p ->
  pow2 n - p <= x -> pow2 n - p <= y ->
  accepts p T (gt p n x y) r <-> r = if y <? x then 1 else 0.
Proof.
  intros Hx Hy Hn Ux Uy. rewrite gt_accepts by auto.
  assert (U : forall z X, 0 <= z < p -> pow2 n - p <= z -> 0 <= X < pow2 n -> X mod p = z -> X = z).
  { intros z X Hz Hu HX E. destruct (Z_lt_dec X p); [rewrite Z.mod_small in E; lia|].
    exfalso. replace X with (X - p + 1 * p) in E by ring. rewrite Z_mod_plus_full, Z.mod_small in E by lia. lia. }
  split.
  - intros (X & Y & HX & HY & MX & MY & ->). apply U in MX; auto. apply U in MY; auto. now subst.
  - intros ->. exists x, y. rewrite !Z.mod_small by lia. repeat split; lia.
Qed.

(** A second representative flips the comparison. *)
Theorem gt_ambiguous n x y : 0 <= x < p -> 0 <= y < p -> p <= pow2 n ->
  x < pow2 n - p -> accepts p T (gt p n x y) 1.
Proof.
  intros Hx Hy Hn Hs. apply gt_accepts; auto. exists (x + p), y.
  repeat split; try lia.
  - replace (x + p) with (x + 1 * p) by ring. rewrite Z_mod_plus_full. apply Z.mod_small. lia.
  - apply Z.mod_small. lia.
  - destruct (Z.ltb_spec y (x + p)); lia.
Qed.
End Main.
