From Coq Require Import List ZArith Bool Arith Lia.
From Verif Require Import Base.Machine Model.Io Spec.Io.
Import ListNotations.
Local Open Scope Z_scope.

Definition word (s : Z) : Prop := 0 <= s < 2 ^ 32.
Lemma word_bits s : word s <-> 0 <= s /\ forall i, 32 <= i -> Z.testbit s i = false.
Proof.
  unfold word. split.
  - intros H. split; [lia|]. intros i Hi. destruct (Z.eq_dec s 0) as [-> |N]; [apply Z.bits_0|].
    apply Z.bits_above_log2; [lia|]. apply Z.log2_lt_pow2; [lia|]. apply Z.lt_le_trans with (2 ^ 32); [lia|]. apply Z.pow_le_mono_r; lia.
  - intros (P & H). split; auto. destruct (Z.eq_dec s 0) as [-> |N]; [reflexivity|].
    apply Z.log2_lt_pow2; [lia|]. destruct (Z.lt_ge_cases (Z.log2 s) 32) as [L|L]; auto.
    specialize (H _ L). rewrite Z.bit_log2 in H by lia. discriminate.
Qed.
Lemma word_lxor a b : word a -> word b -> word (Z.lxor a b).
Proof.
  rewrite !word_bits. intros (P & H) (Q & G). split; [apply Z.lxor_nonneg; tauto|]. intros i Hi. rewrite Z.lxor_spec, H, G by auto. reflexivity.
Qed.
Lemma word_half s : word s -> word (Z.shiftr s 1) /\ Z.testbit (Z.shiftr s 1) 31 = false.
Proof.
  rewrite !word_bits. intros (P & H). split; [split|].
  - now apply Z.shiftr_nonneg.
  - intros i Hi. rewrite Z.shiftr_spec by lia. apply H. lia.
  - rewrite Z.shiftr_spec by lia. apply H. lia.
Qed.
Lemma word_poly : word POLY /\ Z.testbit POLY 31 = true.
Proof. split; [unfold word, POLY; lia|reflexivity]. Qed.
Lemma word_ones : word ONES.
Proof. unfold word, ONES. lia. Qed.
Lemma word_shift s : word s -> word (shift s).
Proof. intros H. unfold shift. destruct (word_half s H), word_poly. destruct (Z.odd s); auto. now apply word_lxor. Qed.
Lemma lxor_cancel a b c : Z.lxor a c = Z.lxor b c -> a = b.
Proof. intros H. rewrite <- (Z.lxor_0_r a), <- (Z.lxor_0_r b), <- (Z.lxor_nilpotent c), <- !Z.lxor_assoc, H. reflexivity. Qed.
Lemma halves a b : Z.odd a = Z.odd b -> Z.shiftr a 1 = Z.shiftr b 1 -> a = b.
Proof.
  intros O S. rewrite !Z.shiftr_div_pow2 in S by lia. change (2 ^ 1) with 2 in S.
  pose proof (Z.div_mod a 2). pose proof (Z.div_mod b 2). rewrite !Zmod_odd, O, S in *. destruct (Z.odd b); lia.
Qed.
Lemma shift_inj a b : word a -> word b -> shift a = shift b -> a = b.
Proof.
  intros Ha Hb E. destruct (word_half a Ha) as (_ & Ta), (word_half b Hb) as (_ & Tb), word_poly as (_ & Tp).
  assert (O : Z.odd a = Z.odd b).
  { pose proof (f_equal (fun x => Z.testbit x 31) E) as B. cbn beta in B. unfold shift in B.
    destruct (Z.odd a), (Z.odd b); auto; rewrite ?Z.lxor_spec, Ta, Tb, Tp in B; discriminate. }
  apply halves; auto. unfold shift in E. rewrite O in E. destruct (Z.odd b); auto. now apply lxor_cancel in E.
Qed.
Lemma odd_lxor_double s w : Z.odd (Z.lxor s (2 * w)) = Z.odd s.
Proof. rewrite <- !Z.bit0_odd, Z.lxor_spec, Z.testbit_even_0. apply xorb_false_r. Qed.
Lemma half_double w : Z.shiftr (2 * w) 1 = w.
Proof. rewrite Z.shiftr_div_pow2 by lia. change (2 ^ 1) with 2. rewrite Z.mul_comm. apply Z.div_mul. lia. Qed.
Lemma shift_lxor s w : shift (Z.lxor s (2 * w)) = Z.lxor (shift s) w.
Proof.
  unfold shift. rewrite odd_lxor_double, Z.shiftr_lxor, half_double. destruct (Z.odd s); auto.
  rewrite !Z.lxor_assoc. f_equal. apply Z.lxor_comm.
Qed.

(** ** One bit at a time *)
Definition step (s : Z) (b : bool) : Z := shift (Z.lxor s (Z.b2z b)).
Fixpoint num (l : list bool) : Z := match l with [] => 0 | b :: r => Z.lxor (Z.b2z b) (2 * num r) end.
Lemma steps l : forall s, fold_left step l s = iter (length l) shift (Z.lxor s (num l)).
Proof.
  induction l as [|b l IH]; intros s; cbn [fold_left length num iter].
  - now rewrite Z.lxor_0_r.
  - rewrite IH. f_equal. unfold step. rewrite <- Z.lxor_assoc, shift_lxor. reflexivity.
Qed.
Lemma num_nth l : forall i, Z.testbit (num l) (Z.of_nat i) = nth i l false.
Proof.
  induction l as [|b l IH]; intros [|i]; cbn [num nth]; try apply Z.bits_0.
  - change (Z.of_nat 0) with 0. rewrite Z.lxor_spec, Z.testbit_even_0, xorb_false_r. apply Z.b2z_bit0.
  - rewrite Z.lxor_spec. rewrite Nat2Z.inj_succ, Z.testbit_even_succ, IH by lia.
    assert (Hb : Z.testbit (Z.b2z b) (Z.succ (Z.of_nat i)) = false) by (apply Z.b2z_bit0 || (destruct b; cbn [Z.b2z]; [apply Z.bits_above_log2; cbn; lia|apply Z.bits_0])).
    rewrite Hb. apply xorb_false_l.
Qed.
Lemma num_pos l : 0 <= num l.
Proof. induction l as [|b l IH]; cbn [num]; [lia|]. apply Z.lxor_nonneg. destruct b; cbn [Z.b2z]; lia. Qed.
Lemma num_word l : (length l <= 32)%nat -> word (num l).
Proof.
  intros L. apply word_bits. split; [apply num_pos|]. intros i Hi. rewrite <- (Z2Nat.id i) by lia. rewrite num_nth. apply nth_overflow. lia.
Qed.
Lemma num_inj a b : length a = length b -> num a = num b -> a = b.
Proof. intros L E. apply (nth_ext _ _ false false); auto. intros i _. now rewrite <- !num_nth, E. Qed.
Lemma iter_word n : forall s, word s -> word (iter n shift s).
Proof. induction n as [|n IH]; cbn; intros; auto. apply IH, word_shift; auto. Qed.
Lemma iter_inj n : forall a b, word a -> word b -> iter n shift a = iter n shift b -> a = b.
Proof. induction n as [|n IH]; cbn; intros; auto. apply IH in H1; auto using word_shift. now apply shift_inj. Qed.
Lemma b2z_word b : word (Z.b2z b).
Proof. destruct b; unfold word; cbn; lia. Qed.
Lemma steps_word l : forall s, word s -> word (fold_left step l s).
Proof. induction l as [|b l IH]; cbn; intros; auto. apply IH, word_shift, word_lxor; auto using b2z_word. Qed.
Lemma steps_inj l : forall a b, word a -> word b -> fold_left step l a = fold_left step l b -> a = b.
Proof.
  induction l as [|x l IH]; cbn; intros a b Ha Hb E; auto.
  apply IH in E; [|apply word_shift, word_lxor; auto using b2z_word..].
  apply shift_inj in E; [|apply word_lxor; auto using b2z_word..]. now apply lxor_cancel in E.
Qed.
Lemma burst_bits p u v q s : word s -> length u = length v -> (length u <= 32)%nat -> u <> v ->
  fold_left step (p ++ u ++ q) s <> fold_left step (p ++ v ++ q) s.
Proof.
  intros Hs L B N E. rewrite !fold_left_app in E. pose proof (steps_word p s Hs) as Hp. set (t := fold_left step p s) in *.
  apply steps_inj in E; [|apply steps_word; auto..]. rewrite !steps, <- L in E.
  apply iter_inj in E; [|apply word_lxor; auto; apply num_word; lia..].
  rewrite (Z.lxor_comm t), (Z.lxor_comm t) in E. apply lxor_cancel in E. now apply num_inj in E.
Qed.

(** ** Bytes *)
Definition bits_of (b : Z) : list bool := map (fun i => Z.testbit b (Z.of_nat i)) (seq 0 8).
Definition bits (l : bytes) : list bool := flat_map bits_of l.
Lemma nth_map_seq {A} (f : nat -> A) n i d : (i < n)%nat -> nth i (map f (seq 0 n)) d = f i.
Proof. intros H. rewrite (nth_indep _ d (f O)) by (rewrite map_length, seq_length; auto). rewrite map_nth, seq_nth by auto. reflexivity. Qed.
Lemma num_bits b : is_byte b -> num (bits_of b) = b.
Proof.
  intros H. unfold is_byte in H. apply Z.bits_inj'. intros i Hi. rewrite <- (Z2Nat.id i) by lia. rewrite num_nth.
  destruct (Nat.lt_ge_cases (Z.to_nat i) 8) as [L|L].
  - unfold bits_of. now rewrite nth_map_seq.
  - rewrite nth_overflow by (unfold bits_of; rewrite map_length, seq_length; lia). symmetry.
    destruct (Z.eq_dec b 0) as [-> |N]; [apply Z.bits_0|]. apply Z.bits_above_log2; [lia|]. apply Z.log2_lt_pow2; [lia|].
    apply Z.lt_le_trans with (2 ^ 8); [lia|]. apply Z.pow_le_mono_r; lia.
Qed.
Lemma crc_byte_bits s b : is_byte b -> crc_byte s b = fold_left step (bits_of b) s.
Proof. intros H. rewrite steps, num_bits by auto. reflexivity. Qed.
Lemma crc_bits l : Forall is_byte l -> forall s, fold_left crc_byte l s = fold_left step (bits l) s.
Proof.
  induction 1 as [|b l Hb Hl IH]; intros s; auto. cbn [fold_left bits flat_map]. rewrite fold_left_app, IH, crc_byte_bits by auto. reflexivity.
Qed.
Lemma bits_length l : length (bits l) = (8 * length l)%nat.
Proof. induction l as [|b l IH]; auto. cbn [bits flat_map length]. rewrite app_length. fold (bits l). rewrite IH. cbn [bits_of map seq length]. lia. Qed.
Lemma bits_nth l : forall i, (i < 8 * length l)%nat -> nth i (bits l) false = bit l i.
Proof.
  induction l as [|b l IH]; intros i H; cbn [length] in H; [lia|]. cbn [bits flat_map]. fold (bits l).
  assert (L8 : length (bits_of b) = 8%nat) by reflexivity. destruct (Nat.lt_ge_cases i 8) as [Li|Li].
  - rewrite app_nth1 by lia. unfold bit. rewrite Nat.div_small, Nat.mod_small by auto. unfold bits_of. now rewrite nth_map_seq.
  - rewrite app_nth2, L8, IH by lia. unfold bit. replace i with (i - 8 + 1 * 8)%nat at 3 4 by lia.
    rewrite Nat.div_add, Nat.mod_add, Nat.add_1_r by lia. reflexivity.
Qed.
Lemma bits_inj a : forall b, Forall is_byte a -> Forall is_byte b -> bits a = bits b -> a = b.
Proof.
  induction a as [|x a IH]; intros [|y b] Ha Hb E; auto; try discriminate.
  inversion Ha; inversion Hb; subst. cbn [bits flat_map] in E. fold (bits a) (bits b) in E.
  assert (bits_of x = bits_of y /\ bits a = bits b) as (E1 & E2).
  { split; [apply (f_equal (firstn 8)) in E|apply (f_equal (skipn 8)) in E]; exact E. }
  f_equal; auto. rewrite <- (num_bits x), <- (num_bits y), E1; auto.
Qed.
Lemma bit_out l i : (8 * length l <= i)%nat -> bit l i = false.
Proof. intros H. unfold bit. rewrite nth_overflow; [apply Z.bits_0|]. apply Nat.div_le_lower_bound; lia. Qed.

Lemma firstn_nth_eq {A} (d : A) (l m : list A) n : length l = length m -> (forall i, (i < n)%nat -> nth i l d = nth i m d) -> firstn n l = firstn n m.
Proof.
  revert l m. induction n as [|n IH]; intros [|a l] [|b m] L H; auto; try discriminate. cbn. f_equal.
  - apply (H O). lia.
  - apply IH; auto. intros i Hi. apply (H (S i)). lia.
Qed.
Lemma skipn_nth_eq {A} (d : A) (l m : list A) n : length l = length m -> (forall i, (n <= i)%nat -> nth i l d = nth i m d) -> skipn n l = skipn n m.
Proof.
  revert l m. induction n as [|n IH]; intros [|a l] [|b m] L H; auto; try discriminate.
  - cbn. apply (nth_ext _ _ d d); auto. intros i _. apply (H i). lia.
  - cbn. apply IH; auto. intros i Hi. apply (H (S i)). lia.
Qed.
Lemma crc_burst a b : Forall is_byte a -> Forall is_byte b -> burst 32 a b -> crc32c a <> crc32c b.
Proof.
  intros Ha Hb (L & N & from & H) E. unfold crc32c, crc32c_append in E. apply lxor_cancel in E. rewrite !crc_bits in E by auto.
  set (x := bits a) in *. set (y := bits b) in *.
  assert (Lx : length x = length y) by (unfold x, y; rewrite !bits_length; lia).
  assert (B : forall i, (i < from \/ from + 32 <= i)%nat -> nth i x false = nth i y false).
  { intros i Hi. destruct (Nat.lt_ge_cases i (8 * length a)) as [Li|Li].
    - unfold x, y. rewrite !bits_nth by lia. now apply H.
    - rewrite !nth_overflow by (unfold x, y; rewrite bits_length; lia). reflexivity. }
  assert (Nxy : x <> y) by (intros Q; apply N, bits_inj; auto).
  assert (Split : forall l : list bool, l = firstn from l ++ firstn 32 (skipn from l) ++ skipn (from + 32) l).
  { intros l. rewrite <- (firstn_skipn from l) at 1. f_equal. rewrite <- (firstn_skipn 32 (skipn from l)) at 1. f_equal.
    clear. rewrite Nat.add_comm. generalize 32%nat. intros n. revert l. induction from as [|k IH]; intros l; [now rewrite Nat.add_0_r|].
    rewrite <- plus_n_Sm. destruct l; cbn [skipn]; [apply skipn_nil|apply IH]. }
  assert (P : firstn from x = firstn from y) by (apply (firstn_nth_eq false); auto).
  assert (Q : skipn (from + 32) x = skipn (from + 32) y) by (apply (skipn_nth_eq false); auto).
  rewrite (Split x), (Split y) in E, Nxy. rewrite P, Q in E, Nxy. revert E. apply burst_bits.
  - apply word_lxor; [unfold word; lia|apply word_ones].
  - rewrite !firstn_length, !skipn_length. lia.
  - rewrite firstn_length. lia.
  - intros R. apply Nxy. now rewrite R.
Qed.
(** Corruption within four consecutive bytes is such a burst *)
Lemma crc_four a b u v p q : a = p ++ u ++ q -> b = p ++ v ++ q -> length u = length v -> (length u <= 4)%nat -> u <> v -> burst 32 a b.
Proof.
  intros -> -> L B N. split; [rewrite !app_length; lia|]. split.
  - intros E. apply app_inv_head in E. now apply app_inv_tail in E.
  - exists (8 * length p)%nat. intros i Hi. unfold bit. f_equal.
    destruct (Nat.lt_ge_cases (i / 8) (length p)) as [Li|Li]; [now rewrite !app_nth1 by lia|].
    rewrite !(app_nth2 p) by lia. destruct Hi as [Hi|Hi].
    + exfalso. apply Nat.div_le_lower_bound in Li; [|lia] || idtac. pose proof (Nat.div_lt_upper_bound i 8 (length p)). lia.
    + assert (length u <= i / 8 - length p)%nat. { pose proof (Nat.div_le_lower_bound i 8 (length p + 4)). lia. }
      rewrite !app_nth2 by lia. now rewrite L.
Qed.
(** The checksum of a concatenation can be computed piece by piece *)
Lemma crc_app a b : crc32c (a ++ b) = crc32c_append (crc32c a) b.
Proof.
  unfold crc32c, crc32c_append. rewrite fold_left_app. rewrite Z.lxor_assoc, Z.lxor_nilpotent, Z.lxor_0_r. reflexivity.
Qed.
Lemma crc_word a : Forall is_byte a -> word (crc32c a).
Proof.
  intros H. unfold crc32c, crc32c_append. rewrite crc_bits by auto. apply word_lxor; [apply steps_word, word_lxor; [unfold word; lia|]|]; apply word_ones.
Qed.
