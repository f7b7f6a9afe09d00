(** Artifacts in memory and in files (C38, C39, C64, C70). *)
From Coq Require Import List ZArith Bool Arith.
From Verif Require Import Base.Machine Model.Io Spec.Io.
From Verif.Proofs Require Crc Io IoMain.
Import ListNotations.
Local Open Scope list_scope.

(** C38.  What was serialized, compressed or not, is read back, also when other bytes
    follow. *)
Theorem C38_bytes_round_trip {T} (z : zstd) (cd : codec T) : zstd_ok z -> codec_ok cd ->
  forall v c data rest, payload_ok z cd v c -> serialize_to_bytes z cd v c = Some data -> deserialize_from_bytes z cd (data ++ rest) = Some v.
Proof. exact (Io.bytes_round_trip z cd). Qed.
Print Assumptions C38_bytes_round_trip.
(** The same through a file, for every behaviour of the buffered reader. *)
Theorem C38_file_round_trip {T} (z : zstd) (buf : buffering) (cd : codec T) : buffering_ok buf -> codec_ok cd ->
  forall v data rest, payload_ok z cd v false -> serialize_to_bytes z cd v false = Some data -> deserialize_content z buf cd (data ++ rest) = Some v.
Proof. exact (Io.file_round_trip z buf cd). Qed.
Print Assumptions C38_file_round_trip.
(** For a compressed file the decoder must have read the whole payload. *)
Theorem C38_compressed_file_partial {T} (z : zstd) (buf : buffering) (cd : codec T) : zstd_ok z -> codec_ok cd ->
  forall v m data rest, payload_ok z cd v true -> encode cd v = Some m -> serialize_to_bytes z cd v true = Some data ->
  length (zenc z m) <= ahead_zstd buf (zenc z m) (length m) -> deserialize_content z buf cd (data ++ rest) = Some v.
Proof. exact (Io.file_round_trip_zstd z buf cd). Qed.
Print Assumptions C38_compressed_file_partial.
Example C38_met : zstd_ok IoMain.toy_zstd /\ codec_ok IoMain.opt_bytes /\ buffering_ok (IoMain.blocks 4) /\
  let v := Some [1; 2; 3]%Z in payload_ok IoMain.toy_zstd IoMain.opt_bytes v true /\
  exists data, serialize_to_bytes IoMain.toy_zstd IoMain.opt_bytes v true = Some data /\ length data = 32 /\
  deserialize_from_bytes IoMain.toy_zstd IoMain.opt_bytes data = Some v /\
  deserialize_content IoMain.toy_zstd (IoMain.blocks 4) IoMain.opt_bytes (data ++ [9%Z]) = Some v.
Proof. exact IoMain.round_trip_met. Qed.

(** C39.  A corruption within 32 consecutive bits of the payload is reported. *)
Theorem C39_burst {T} (z : zstd) (cd : codec T) : forall v c data payload', payload_ok z cd v c -> serialize_to_bytes z cd v c = Some data ->
  Forall is_byte payload' -> burst 32 (skipn HEADER_LEN data) payload' -> deserialize_from_bytes z cd (firstn HEADER_LEN data ++ payload') = None.
Proof. exact (Io.bytes_burst z cd). Qed.
Print Assumptions C39_burst.
(** In particular a change of up to four consecutive bytes. *)
Theorem C39_four_bytes (a b u v p q : bytes) : a = p ++ u ++ q -> b = p ++ v ++ q -> length u = length v -> length u <= 4 -> u <> v -> burst 32 a b.
Proof. exact (Crc.crc_four a b u v p q). Qed.
Print Assumptions C39_four_bytes.
(** From a file: when the reader has read the whole payload before the checksum is compared. *)
Theorem C39_file_burst_partial {T} (z : zstd) (buf : buffering) (cd : codec T) : forall v (c : bool) data payload', payload_ok z cd v c -> serialize_to_bytes z cd v c = Some data ->
  Forall is_byte payload' -> burst 32 (skipn HEADER_LEN data) payload' ->
  (forall r k, decode cd (if c then fst (zstream z payload') else payload') = Some (r, k) -> length payload' <= if c then ahead_zstd buf payload' k else ahead_plain buf payload' k) ->
  deserialize_content z buf cd (firstn HEADER_LEN data ++ payload') = None.
Proof. exact (Io.file_burst z buf cd). Qed.
Print Assumptions C39_file_burst_partial.
(** In general a corrupted file is decoded: for every block size of the reader there is a
    payload of which one byte can be changed without being noticed. *)
Theorem C39_file_refuted : forall B, 5 <= B -> (Z.of_nat B < U32 - 1)%Z -> exists (z : zstd) (cd : codec (option bytes)), zstd_ok z /\ codec_ok cd /\ buffering_ok (IoMain.blocks B) /\
  exists d data payload', serialize_to_bytes z cd (Some d) false = Some data /\
  Forall is_byte payload' /\ burst 8 (skipn HEADER_LEN data) payload' /\
  deserialize_content z (IoMain.blocks B) cd (firstn HEADER_LEN data ++ payload') = Some None.
Proof. exact IoMain.file_burst_refuted. Qed.
Print Assumptions C39_file_refuted.
(** The header is not protected: one bit of its magic number changes the value. *)
Theorem C39_header_refuted : exists (z : zstd) (buf : buffering) (cd : codec Z) data data', zstd_ok z /\ buffering_ok buf /\ codec_ok cd /\
  serialize_to_bytes z cd 7%Z false = Some data /\ burst 1 data data' /\ deserialize_from_bytes z cd data' = Some 74%Z /\ deserialize_content z buf cd data' = Some 74%Z.
Proof. exact IoMain.header_refuted. Qed.
Print Assumptions C39_header_refuted.
Example C39_met : let v := Some [1; 2; 3]%Z in exists data payload', serialize_to_bytes IoMain.toy_zstd IoMain.opt_bytes v false = Some data /\
  Forall is_byte payload' /\ burst 32 (skipn HEADER_LEN data) payload' /\ payload_ok IoMain.toy_zstd IoMain.opt_bytes v false.
Proof. exact IoMain.burst_met. Qed.
(** the published check value of CRC-32C *)
Example C39_check_value : crc32c [49; 50; 51; 52; 53; 54; 55; 56; 57]%Z = 0xE3069283%Z.
Proof. vm_compute. reflexivity. Qed.

(** C70.  A truncated artifact is reported: in memory from the fourth byte on, in a plain
    file always. *)
Theorem C70_truncated_bytes_partial {T} (z : zstd) (cd : codec T) : forall v c data n, payload_ok z cd v c -> serialize_to_bytes z cd v c = Some data -> 4 <= n < length data ->
  deserialize_from_bytes z cd (firstn n data) = None.
Proof. exact (Io.bytes_truncated z cd). Qed.
Print Assumptions C70_truncated_bytes_partial.
Theorem C70_truncated_file {T} (z : zstd) (buf : buffering) (cd : codec T) : codec_ok cd ->
  forall v data n, payload_ok z cd v false -> serialize_to_bytes z cd v false = Some data -> n < length data -> deserialize_content z buf cd (firstn n data) = None.
Proof. exact (Io.file_truncated z buf cd). Qed.
Print Assumptions C70_truncated_file.
Theorem C70_truncated_refuted : exists (z : zstd) (cd : codec Z) data, zstd_ok z /\ codec_ok cd /\ payload_ok z cd 7%Z false /\
  serialize_to_bytes z cd 7%Z false = Some data /\ deserialize_from_bytes z cd (firstn 3 data) = Some 74%Z.
Proof. exact IoMain.truncated_refuted. Qed.
Print Assumptions C70_truncated_refuted.

(** C64.  Reading a file and reading its content from memory differ, both ways. *)
Theorem C64_file_and_bytes_refuted : exists (z : zstd) (buf : buffering) (cd : codec Z) short long, zstd_ok z /\ buffering_ok buf /\ codec_ok cd /\
  Forall is_byte short /\ Forall is_byte long /\
  deserialize_from_bytes z cd short = Some 5%Z /\ deserialize_content z buf cd short = None /\
  deserialize_from_bytes z cd long = None /\ deserialize_content z buf cd long = Some 5%Z.
Proof. exact IoMain.agree_refuted. Qed.
Print Assumptions C64_file_and_bytes_refuted.
(** They agree on whatever was written plain, with anything behind it, and on raw content
    of at least twenty bytes. *)
Theorem C64_written_agree_partial {T} (z : zstd) (buf : buffering) (cd : codec T) : zstd_ok z -> buffering_ok buf -> codec_ok cd ->
  forall v data rest, payload_ok z cd v false -> serialize_to_bytes z cd v false = Some data ->
  deserialize_content z buf cd (data ++ rest) = deserialize_from_bytes z cd (data ++ rest).
Proof. exact (IoMain.written_agree z buf cd). Qed.
Print Assumptions C64_written_agree_partial.
Theorem C64_raw_agree_partial {T} (z : zstd) (buf : buffering) (cd : codec T) content : 20 <= length content ->
  firstn 4 content <> ENVELOPE_MAGIC -> firstn 4 content <> ZSTD_MAGIC -> deserialize_content z buf cd content = deserialize_from_bytes z cd content.
Proof. exact (IoMain.raw_agree' z buf cd content). Qed.
Print Assumptions C64_raw_agree_partial.
(** For an envelope, a file that a plain payload fills and whose value uses all of it. *)
Theorem C64_envelope_agree_partial {T} (z : zstd) (buf : buffering) (cd : codec T) content h : parse_header content = Some h -> firstn 4 content = ENVELOPE_MAGIC ->
  compressed h = false -> payload_len h = Z.of_nat (length content - 20) ->
  (forall v k, decode cd (skipn 20 content) = Some (v, k) -> length content - 20 <= ahead_plain buf (skipn 20 content) k) ->
  deserialize_content z buf cd content = deserialize_from_bytes z cd content.
Proof. exact (IoMain.envelope_agree z buf cd content h). Qed.
Print Assumptions C64_envelope_agree_partial.
