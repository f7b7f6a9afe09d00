(** Fixed-width machine integers as integers with explicit overflow, and
    little-endian byte encodings. *)
From Coq Require Import ZArith List Lia Bool.
From Verif Require Import Base.Array.
Import ListNotations.
Local Open Scope Z_scope.

Definition U8 : Z := 2 ^ 8.
Definition U32 : Z := 2 ^ 32.
Definition U64 : Z := 2 ^ 64.
Definition U128 : Z := 2 ^ 128.

(** The result of an unsigned operation: [None] if it does not fit (a panic with
    overflow checks, a wrapped value without them). *)
Definition unsigned (w x : Z) : option Z := if (0 <=? x) && (x <? w) then Some x else None.
(** The result of a signed operation of modulus [w]. *)
Definition signed (w x : Z) : option Z := if (- w / 2 <=? x) && (x <? w / 2) then Some x else None.

Lemma unsigned_some w x : 0 <= x < w -> unsigned w x = Some x.
Proof. intros H. unfold unsigned. destruct (Z.leb_spec 0 x), (Z.ltb_spec x w); auto; lia. Qed.
Lemma unsigned_inv w x y : unsigned w x = Some y -> y = x /\ 0 <= x < w.
Proof. unfold unsigned. destruct (Z.leb_spec 0 x), (Z.ltb_spec x w); cbn; intros E; inversion E; subst; lia. Qed.
Lemma signed_some w x : - w / 2 <= x < w / 2 -> signed w x = Some x.
Proof. intros H. unfold signed. destruct (Z.leb_spec (- w / 2) x), (Z.ltb_spec x (w / 2)); auto; lia. Qed.
Lemma signed_inv w x y : signed w x = Some y -> y = x /\ - w / 2 <= x < w / 2.
Proof.
  unfold signed. destruct (Z.leb_spec (- w / 2) x), (Z.ltb_spec x (w / 2)); cbn; intros E; inversion E; subst; lia.
Qed.

(** ** Bytes *)
Definition is_byte (b : Z) : Prop := 0 <= b < 256.

(** The [n] low-order bytes of [x], least significant first. *)
Fixpoint le_bytes (n : nat) (x : Z) : list Z :=
  match n with O => [] | S m => x mod 256 :: le_bytes m (x / 256) end.
Fixpoint le_val (l : list Z) : Z :=
  match l with [] => 0 | b :: r => b + 256 * le_val r end.

Lemma le_bytes_length n x : length (le_bytes n x) = n.
Proof. revert x. induction n; intros; cbn; auto. Qed.
Lemma le_bytes_bytes n x : Forall is_byte (le_bytes n x).
Proof.
  revert x. induction n; intros; cbn; constructor; auto. apply Z.mod_pos_bound. lia.
Qed.
Lemma le_val_bytes n x : le_val (le_bytes n x) = x mod 256 ^ Z.of_nat n.
Proof.
  revert x. induction n as [|n IH]; intros x.
  - cbn. now rewrite Z.mod_1_r.
  - cbn [le_bytes le_val]. rewrite IH, Nat2Z.inj_succ, Z.pow_succ_r by lia.
    rewrite Z.rem_mul_r by (try apply Z.pow_nonzero; lia). reflexivity.
Qed.
Lemma le_val_id n x : 0 <= x < 256 ^ Z.of_nat n -> le_val (le_bytes n x) = x.
Proof. intros H. rewrite le_val_bytes. now apply Z.mod_small. Qed.
Lemma le_val_range l : Forall is_byte l -> 0 <= le_val l < 256 ^ Z.of_nat (length l).
Proof.
  induction 1 as [|b l Hb Hl IH]; [cbn; lia|]. cbn [le_val length].
  rewrite Nat2Z.inj_succ, Z.pow_succ_r by lia. unfold is_byte in Hb. lia.
Qed.
Lemma le_bytes_val l : Forall is_byte l -> le_bytes (length l) (le_val l) = l.
Proof.
  induction 1 as [|b l Hb Hl IH]; [reflexivity|]. cbn [le_val length le_bytes]. unfold is_byte in Hb.
  rewrite (Z.mul_comm 256), Z_mod_plus_full, Z.mod_small by lia.
  rewrite Z.div_add, Z.div_small, Z.add_0_l, IH by lia. reflexivity.
Qed.
Lemma le_bytes_inj n x y : 0 <= x < 256 ^ Z.of_nat n -> 0 <= y < 256 ^ Z.of_nat n ->
  le_bytes n x = le_bytes n y -> x = y.
Proof. intros Hx Hy E. rewrite <- (le_val_id n x), <- (le_val_id n y), E; auto. Qed.
Lemma le_val_inj l l' : Forall is_byte l -> Forall is_byte l' -> length l = length l' ->
  le_val l = le_val l' -> l = l'.
Proof. intros H H' L E. rewrite <- (le_bytes_val l H), <- (le_bytes_val l' H'), L, E. reflexivity. Qed.
