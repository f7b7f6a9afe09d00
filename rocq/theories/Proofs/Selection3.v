(** The positions read by GatherElements with computed indices. *)
From Coq Require Import List Arith Bool ZArith Lia.
From Verif Require Import Base.Array Spec.Shapes Spec.Tensors Model.Shapes Model.DataMovement Proofs.Shapes Proofs.Tensors
  Proofs.DataMovement Proofs.DataMovement2 Proofs.DataMovement3 Proofs.DataMovement4 Proofs.DataMovement5 Proofs.DataMovement6.
Import ListNotations.
Local Open Scope list_scope.
Local Open Scope nat_scope.

Lemma row_major_put s c axis a : length c = length s -> axis < length s ->
  row_major (put axis a c) s = row_major (put axis 0 c) s + a * prod (skipn (S axis) s).
Proof.
  intros L Ha. unfold put. rewrite <- (firstn_skipn axis s) at 1 2. rewrite (skipn_cons s axis Ha).
  rewrite !row_major_app by (cbn [length]; rewrite ?firstn_length, ?skipn_length; lia).
  rewrite !row_major_cons by (rewrite !skipn_length; lia). lia.
Qed.
Theorem gather_slices_ok s axis I : length I = length s -> axis < length s -> nth axis s 0 <> 0 ->
  exists slices, gather_slices s axis I = Some slices /\ length slices = prod I /\
    forall c, in_range c I -> nth_error slices (row_major c I) = Some (map (fun a => row_major (put axis a c) s) (seq 0 (nth axis s 0))).
Proof.
  intros L Ha Hd. unfold gather_slices. rewrite (proj2 (Nat.eqb_eq _ _) L). cbn [guard obind].
  rewrite (proj2 (Nat.eqb_neq (length s) 0)) by lia. cbn [guard negb obind].
  rewrite strides_ok. cbn [obind]. rewrite strides_ok. cbn [obind]. rewrite nth_get by auto. cbn [obind].
  rewrite (proj2 (Nat.eqb_neq _ 0) Hd). cbn [guard negb obind]. rewrite nth_get by (rewrite map_length, seq_length; auto). cbn [obind].
  rewrite nth_map_seq by auto. rewrite L. apply index_map_ok. intros c R.
  rewrite (for_in_ext _ (fun dim (st : nat * nat) =>
      let (remaining, data_flat_idx) := st in
      let* is := aget (map (fun k => prod (skipn (S k) I)) (seq 0 (length s))) dim in
      let* ds := aget (map (fun k => prod (skipn (S k) s)) (seq 0 (length s))) dim in
      let* _ := guard (negb (is =? 0)) in
      Some (remaining mod is, data_flat_idx + (if dim =? axis then 0 else remaining / is) * ds))).
  - rewrite (row_major_loop s I c (put axis 0 c)); auto. cbn [obind]. f_equal. apply map_ext. intros a.
    symmetry. apply row_major_put; auto. rewrite <- L. now apply in_range_length.
  - intros k (rem & acc) _. destruct (aget (map _ _) k) as [is|]; [|reflexivity]. cbn [obind].
    destruct (aget (map _ _) k) as [ds|]; [|reflexivity]. cbn [obind]. destruct (negb (is =? 0)); [|reflexivity]. cbn [guard obind].
    destruct (k =? axis); [|reflexivity]. now rewrite Nat.mul_0_l, Nat.add_0_r.
Qed.
