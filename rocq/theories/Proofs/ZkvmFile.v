From Coq Require Import List ZArith QArith Bool String Arith Lia.
From Verif Require Import Base.Array Base.Machine Spec.Serdes Spec.Zkvm Spec.Io Model.Serdes Model.Io Model.Zkvm Proofs.Crc Proofs.Io Proofs.Zkvm.
Import ListNotations.
Local Open Scope list_scope.
Local Open Scope Z_scope.

Lemma head_fields payload c rest : Forall is_byte payload -> fits payload ->
  Z.odd (le_val (range (head_of payload c ++ rest) 4 8)) = c /\ le_val (range (head_of payload c ++ rest) 8 16) = Z.of_nat (List.length payload).
Proof.
  intros HB HF. pose proof (parse_head payload c rest HB HF) as P. unfold parse_header in P.
  destruct (_ <? _)%nat in P; [discriminate|]. injection P. auto.
Qed.
Lemma read_envelope z hp c payload rest : Forall is_byte hp -> Z.of_nat (List.length hp) + 20 < 2 ^ 64 -> List.length payload = List.length hp ->
  decompress_model_bytes z (head_of hp c ++ payload ++ rest) =
  if c then match decompress_bytes z payload with Some m => Read m | None => Failed end else Read payload.
Proof.
  intros HB HF L. unfold decompress_model_bytes.
  assert (F : fits hp) by (unfold fits, U64; lia).
  destruct (head_fields hp c (payload ++ rest) HB F) as [E1 E2]. rewrite E1, E2.
  replace (_ && _)%bool with true; [|symmetry; apply andb_true_iff; split; [apply Nat.leb_le; rewrite app_length, head_length; unfold HEADER_LEN; lia|reflexivity]].
  rewrite Z.mod_small by lia.
  replace (Z.of_nat (List.length _) <? _) with false by (symmetry; apply Z.ltb_ge; rewrite !app_length, head_length; unfold HEADER_LEN; lia).
  replace (20 + _ <? 20) with false by (symmetry; apply Z.ltb_ge; lia).
  unfold range. rewrite skipn_pre by apply head_length. replace (Z.to_nat (20 + Z.of_nat (List.length hp)) - 20)%nat with (List.length payload) by lia.
  rewrite firstn_pre by reflexivity. reflexivity.
Qed.
(** What the writer of jstprove_io stores is read back. *)
Lemma read_written (z : zstd) (v : bytes) (c : bool) (rest : bytes) : zstd_ok z -> Forall is_byte (if c then zenc z v else v) -> Z.of_nat (List.length (if c then zenc z v else v)) + 20 < 2 ^ 64 ->
  decompress_model_bytes z (write_envelope (if c then zenc z v else v) c ++ rest) = Read v.
Proof.
  intros ZO H L. rewrite envelope_split, <- app_assoc, read_envelope by auto. destruct c; [|reflexivity].
  unfold decompress_bytes. rewrite (proj1 (ZO v)). reflexivity.
Qed.
Lemma bytes_ne a b : a <> b -> bytes_eqb a b = false.
Proof. intros H. destruct (bytes_eqb a b) eqn:E; [|reflexivity]. apply bytes_eqb_spec in E. contradiction. Qed.
Lemma read_legacy z v : zstd_ok z -> decompress_model_bytes z (zenc z v) = Read v.
Proof.
  intros ZO. destruct (ZO v) as [E M]. unfold decompress_model_bytes. rewrite M. cbn [bytes_eqb]. rewrite andb_false_r.
  replace (4 <=? List.length (zenc z v))%nat with true.
  - cbn [andb]. unfold decompress_bytes. rewrite E. reflexivity.
  - symmetry. apply Nat.leb_le. apply (f_equal (@List.length _)) in M. rewrite firstn_length in M. change (List.length ZSTD_MAGIC) with 4%nat in M. unfold bytes in *. lia.
Qed.
Lemma read_raw z v : firstn 4 v <> ENVELOPE_MAGIC -> firstn 4 v <> ZSTD_MAGIC -> decompress_model_bytes z v = Read v.
Proof. intros A B. unfold decompress_model_bytes. rewrite !bytes_ne by assumption. rewrite !andb_false_r. reflexivity. Qed.
(** Any plain payload of the same length is accepted in place of the one written. *)
Lemma unchecked z payload other : Forall is_byte payload -> Z.of_nat (List.length payload) + 20 < 2 ^ 64 -> List.length other = List.length payload ->
  decompress_model_bytes z (firstn 20 (write_envelope payload false) ++ other) = Read other.
Proof.
  intros H L E. rewrite envelope_split, firstn_pre by apply head_length.
  rewrite <- (app_nil_r other) at 1. rewrite read_envelope by auto. reflexivity.
Qed.
Lemma panics z payload c : Forall is_byte payload -> (20 <= List.length payload)%nat ->
  decompress_model_bytes z (ENVELOPE_MAGIC ++ le_bytes 4 c ++ le_bytes 8 (2 ^ 64 - 20) ++ payload) = Panicked.
Proof.
  intros H L. unfold decompress_model_bytes. set (raw := ENVELOPE_MAGIC ++ _).
  replace (_ && _)%bool with true; [|symmetry; apply andb_true_iff; split; [apply Nat.leb_le; unfold raw; rewrite !app_length; lia|reflexivity]].
  replace (range raw 8 16) with (le_bytes 8 (2 ^ 64 - 20)).
  - rewrite le_val_id by (cbn; lia). replace ((20 + (2 ^ 64 - 20)) mod 2 ^ 64) with 0 by reflexivity.
    replace (Z.of_nat (List.length raw) <? 0) with false by (symmetry; apply Z.ltb_ge; lia). reflexivity.
  - unfold raw. rewrite app_assoc. symmetry. apply range_app; [rewrite app_length, le_bytes_length; reflexivity|rewrite le_bytes_length; reflexivity].
Qed.
