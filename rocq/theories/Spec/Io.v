(** What is expected of the libraries behind the artifacts, and corruption *)
From Coq Require Import List ZArith Bool Arith.
From Verif Require Import Base.Machine Model.Io.
Import ListNotations.
Local Open Scope list_scope.

(** zstd recovers what it compressed, and its frames start with its magic number *)
Definition zstd_ok (z : zstd) : Prop := forall x, zstream z (zenc z x) = (x, true) /\ firstn 4 (zenc z x) = ZSTD_MAGIC.
(** The codec recovers what it encoded, ignores what follows, and never looks beyond the
    bytes it uses *)
Definition codec_ok {T} (cd : codec T) : Prop :=
  (forall v b, encode cd v = Some b -> decode cd b = Some (v, length b)) /\
  (forall b v k, decode cd b = Some (v, k) -> k <= length b /\ forall q, decode cd (b ++ q) = Some (v, k)).
(** A buffered reader has read at least what was used *)
Definition buffering_ok (buf : buffering) : Prop := forall p k, k <= ahead_plain buf p k.
(** Writers write everything, in pieces that are not empty *)
Definition cut_ok (cut : bytes -> list bytes) : Prop := forall b, concat (cut b) = b /\ Forall (fun c => c <> []) (cut b).

(** What is stored is bytes, fewer than 2^64 *)
Definition fits (payload : bytes) : Prop := (Z.of_nat (length payload) < U64)%Z.
Definition payload_ok {T} (z : zstd) (cd : codec T) (v : T) (c : bool) : Prop :=
  forall m, encode cd v = Some m -> Forall is_byte (if c then zenc z m else m) /\ fits (if c then zenc z m else m).

(** The bits of a byte string, the low bit of each byte first *)
Definition bit (l : bytes) (i : nat) : bool := Z.testbit (nth (i / 8) l 0%Z) (Z.of_nat (i mod 8)).
(** Two strings that differ, but only within [n] consecutive bits *)
Definition burst (n : nat) (a b : bytes) : Prop :=
  length a = length b /\ a <> b /\ exists from, forall i, i < from \/ from + n <= i -> bit a i = bit b i.

(** The same files *)
Definition same (s t : fs) : Prop := forall p, s p = t p.
(** No name can exist in a directory that does not *)
Definition tree (s : fs) : Prop := forall n d, s (n :: d) <> None -> s d = Some Dir.
Definition blob_file (z : zstd) (data : bytes) (c : bool) : option node := Some (File (if c then zenc z data else data)).

(** Nothing but the directory of the bundle has changed *)
Definition untouched (before : fs) (dir : path) (s : fs) : Prop := forall p, p <> dir -> (forall n, p <> n :: dir) -> s p = before p.
(** The directory holds the whole bundle *)
Definition complete {M V} (z : zstd) (cd : codec (manifest M V)) (dir : path) (circuit solver : bytes) (vk : option bytes) (m : manifest M V) (c : bool) (s : fs) : Prop :=
  s dir = Some Dir /\ s (CIRCUIT :: dir) = blob_file z circuit c /\ s (WITNESS_SOLVER :: dir) = blob_file z solver c /\
  s (VK :: dir) = match vk with Some v => blob_file z v c | None => None end /\
  exists data, serialize_to_bytes z cd m false = Some data /\ s (MANIFEST :: dir) = Some (File data).
(** A blob that is stored as it is must not look like a zstd frame *)
Definition stored_ok (data : bytes) (c : bool) : Prop := c = true \/ firstn 4 data <> ZSTD_MAGIC.
Definition start (s : fs) (faults : list bool) : world := {| now := s; history := []; faults := faults |}.
(** What a power loss may leave when nothing was synced: of any file, only a prefix *)
Definition reduced (before s : fs) : Prop :=
  forall p, s p = before p \/ exists content n, before p = Some (File content) /\ s p = Some (File (firstn n content)).
