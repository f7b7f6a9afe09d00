(** Artifacts on disk (rust/jstprove_io/src: envelope.rs, compress.rs, lib.rs, bundle.rs).
    Errors are [None], without their messages.  The msgpack codec (rmp_serde), zstd and the
    file system calls are outside the repository: the codec and zstd are parameters, the
    file system is the small one below. *)
From Coq Require Import List ZArith Bool Arith.
From Verif Require Import Base.Array Base.Machine.
Import ListNotations.
Local Open Scope list_scope.

Definition bytes := list Z.
Definition bytes_eqb (a b : bytes) : bool := if list_eq_dec Z.eq_dec a b then true else false.

(** ** CRC-32C (the crc32c crate): reflected, polynomial 0x1EDC6F41 *)
Definition POLY : Z := 0x82F63B78.
Definition ONES : Z := 0xFFFFFFFF.
Definition shift (s : Z) : Z := if Z.odd s then Z.lxor (Z.shiftr s 1) POLY else Z.shiftr s 1.
Fixpoint iter (n : nat) (f : Z -> Z) (s : Z) : Z := match n with O => s | S m => iter m f (f s) end.
Definition crc_byte (s b : Z) : Z := iter 8 shift (Z.lxor s b).
Definition crc32c_append (crc : Z) (data : bytes) : Z := Z.lxor (fold_left crc_byte data (Z.lxor crc ONES)) ONES.
Definition crc32c (data : bytes) : Z := crc32c_append 0 data.

(** ** envelope.rs:3-6, 58 *)
Definition ENVELOPE_MAGIC : bytes := [0x4A; 0x53; 0x54; 1]%Z.
Definition HEADER_LEN : nat := 20.
Definition ZSTD_MAGIC : bytes := [0x28; 0xB5; 0x2F; 0xFD]%Z.
(** :8-12 *)
Record header := { compressed : bool; payload_len : Z; crc32 : Z }.
(** :14-25 write_envelope; [payload.len() as u64] *)
Definition write_envelope (payload : bytes) (c : bool) : bytes :=
  ENVELOPE_MAGIC ++ le_bytes 4 (if c then 1 else 0)%Z ++ le_bytes 8 (Z.of_nat (length payload)) ++ le_bytes 4 (crc32c payload) ++ payload.
Definition range (l : bytes) (from to : nat) : bytes := firstn (to - from) (skipn from l).
(** :27-45 parse_header *)
Definition parse_header (buf : bytes) : option header :=
  if length buf <? HEADER_LEN then None
  else Some {| compressed := Z.odd (le_val (range buf 4 8)); payload_len := le_val (range buf 8 16); crc32 := le_val (range buf 16 20) |}.
(** :47-56 verify_crc *)
Definition verify_crc (payload : bytes) (expected : Z) : bool := (crc32c payload =? expected)%Z.
(** :60-74 detect_format *)
Inductive format := Envelope | LegacyZstd | RawMsgpack.
Definition detect_format (data : bytes) : format :=
  if (4 <=? length data) && bytes_eqb (firstn 4 data) ENVELOPE_MAGIC then Envelope
  else if (4 <=? length data) && bytes_eqb (firstn 4 data) ZSTD_MAGIC then LegacyZstd
  else RawMsgpack.

(** zstd: [zenc] is encode_all at level 3 (and the stream encoder), [zstream] what a
    stream decoder delivers before it ends (true) or fails (false) *)
Record zstd := { zenc : bytes -> bytes; zstream : bytes -> bytes * bool }.
(** The msgpack codec for a type: [encode] is to_vec_named; [decode] reads one value from
    the front and tells how many bytes it used (from_slice and from_read both leave what
    follows) *)
Record codec T := { encode : T -> option bytes; decode : bytes -> option (T * nat) }.
Arguments encode {T}. Arguments decode {T}.
(** Buffering of the readers: how many bytes have been taken from the payload when the
    decoder has used [k] (for a compressed payload, [k] decompressed bytes) *)
Record buffering := { ahead_plain : bytes -> nat -> nat; ahead_zstd : bytes -> nat -> nat }.

Section Codec.
Variables (z : zstd) (buf : buffering).
(** compress.rs:10-32 *)
Definition decompress_bytes (data : bytes) : option bytes := let (out, ok) := zstream z data in if ok then Some out else None.
Definition maybe_compress_bytes (data : bytes) (c : bool) : bytes := if c then zenc z data else data.
Definition auto_decompress_bytes (data : bytes) : option bytes :=
  if (4 <=? length data) && bytes_eqb (firstn 4 data) ZSTD_MAGIC then decompress_bytes data else Some data.

Context {T : Type} (cd : codec T).
Definition value (r : option (T * nat)) : option T := option_map fst r.
(** lib.rs:27-35 serialize_to_bytes *)
Definition serialize_to_bytes (v : T) (c : bool) : option bytes :=
  let* msgpack := encode cd v in Some (write_envelope (if c then zenc z msgpack else msgpack) c).
(** lib.rs:43-74 deserialize_from_bytes *)
Definition deserialize_from_bytes (data : bytes) : option T :=
  match detect_format data with
  | Envelope =>
    let* h := parse_header data in
    let remaining := length data - HEADER_LEN in
    if (Z.of_nat remaining <? payload_len h)%Z then None else
    let payload := firstn (Z.to_nat (payload_len h)) (skipn HEADER_LEN data) in
    if verify_crc payload (crc32 h) then
      let* msgpack := (if compressed h then decompress_bytes payload else Some payload) in value (decode cd msgpack)
    else None
  | LegacyZstd => let* d := decompress_bytes data in value (decode cd d)
  | RawMsgpack => value (decode cd data)
  end.
(** lib.rs:76-109 deserialize_from_file, from the content of the file; reader.take stops
    at the end of the file *)
Definition deserialize_content (content : bytes) : option T :=
  if length content <? HEADER_LEN then None else
  let head := firstn HEADER_LEN content in
  match detect_format head with
  | Envelope =>
    let* h := parse_header head in
    let rest := skipn HEADER_LEN content in
    let taken := firstn (Z.to_nat (Z.min (payload_len h) (Z.of_nat (length rest)))) rest in
    let* r := (if compressed h then let* r := decode cd (fst (zstream z taken)) in Some (fst r, ahead_zstd buf taken (snd r))
               else let* r := decode cd taken in Some (fst r, ahead_plain buf taken (snd r))) in
    if verify_crc (firstn (snd r) taken) (crc32 h) then Some (fst r) else None
  | LegacyZstd => value (decode cd (fst (zstream z content)))
  | RawMsgpack => value (decode cd content)
  end.
End Codec.

(** ** Files.  A path is a list of components, the last one first *)
Definition path := list nat.
Definition path_eqb (a b : path) : bool := if list_eq_dec Nat.eq_dec a b then true else false.
Inductive node := Dir | File (content : bytes).
Definition fs := path -> option node.
Definition put (s : fs) (p : path) (n : option node) : fs := fun q => if path_eqb q p then n else s q.
Definition is_dir (s : fs) (p : path) : bool := match s p with Some Dir => true | _ => false end.
Definition parent_ok (s : fs) (p : path) : bool := match p with [] => true | _ :: d => is_dir s d end.
(** mkdir, creat (truncating), append to an open file, unlink, rmdir *)
Definition mkdir (s : fs) (p : path) : option fs :=
  match s p with Some _ => None | None => if parent_ok s p then Some (put s p (Some Dir)) else None end.
Definition creat (s : fs) (p : path) : option fs :=
  match s p with Some Dir => None | _ => if parent_ok s p then Some (put s p (Some (File []))) else None end.
Definition append (s : fs) (p : path) (data : bytes) : option fs :=
  match s p with Some (File c) => Some (put s p (Some (File (c ++ data)))) | _ => None end.
Definition unlink (s : fs) (p : path) : option fs := match s p with Some (File _) => Some (put s p None) | _ => None end.
(** a directory with a name in it is not removed *)
Definition rmdir (names : list nat) (s : fs) (p : path) : option fs :=
  match s p with
  | Some Dir => if existsb (fun n => match s (n :: p) with Some _ => true | None => false end) names then None else Some (put s p None)
  | _ => None
  end.

(** The file system, all states it has gone through, and what goes wrong next: [true]
    makes a call fail.  A crash leaves one of the states in the history. *)
Record world := { now : fs; history : list fs; faults : list bool }.
Definition call (w : world) (op : fs -> option fs) : world * bool :=
  let w' := {| now := now w; history := history w; faults := tl (faults w) |} in
  if hd false (faults w) then (w', false)
  else match op (now w) with
       | None => (w', false)
       | Some s => ({| now := s; history := history w ++ [s]; faults := tl (faults w) |}, true)
       end.
Fixpoint append_all (w : world) (p : path) (chunks : list bytes) : world * bool :=
  match chunks with
  | [] => (w, true)
  | c :: r => let (w, ok) := call w (fun s => append s p c) in if ok then append_all w p r else (w, false)
  end.

(** ** bundle.rs:10-13 *)
Definition CIRCUIT : nat := 0.
Definition WITNESS_SOLVER : nat := 1.
Definition MANIFEST : nat := 2.
Definition VK : nat := 3.
Definition NAMES : list nat := [CIRCUIT; WITNESS_SOLVER; MANIFEST; VK].
(** :70-75 *)
Record manifest M V := { metadata : option M; version : option V }.
Arguments metadata {M V}. Arguments version {M V}.
(** :127-137 *)
Record blobs M V := { b_circuit : bytes; b_solver : bytes; b_vk : option bytes; b_metadata : option M; b_version : option V }.
Arguments b_circuit {M V}. Arguments b_solver {M V}. Arguments b_vk {M V}. Arguments b_metadata {M V}. Arguments b_version {M V}.

Section Bundle.
Context {M V : Type}.
Variables (z : zstd) (buf : buffering) (cd : codec (manifest M V)).
(** how the writers cut what they write into calls, and how much of a compressed file
    the encoder has passed on when it is finished *)
Variables (cut : bytes -> list bytes) (flushed : bytes -> nat).

(** :205-211 write_blob; compress.rs:34-75.  Finishing a plain writer flushes it;
    finishing a compressed one drops the buffered writer, which writes the rest of its
    buffer and ignores errors (compress.rs:58-61) *)
Definition write_blob (w : world) (p : path) (data : bytes) (c : bool) : world * bool :=
  let (w, ok) := call w (fun s => creat s p) in
  if negb ok then (w, false) else
  if c then
    let content := zenc z data in
    let (w, ok) := append_all w p (cut (firstn (flushed content) content)) in
    if negb ok then (w, false) else (fst (append_all w p (cut (skipn (flushed content) content))), true)
  else append_all w p (cut data).
(** lib.rs:37-41 serialize_to_file, with std::fs::write *)
Definition serialize_to_file (w : world) (p : path) (m : manifest M V) (c : bool) : world * bool :=
  match serialize_to_bytes z cd m c with
  | None => (w, false)
  | Some data => let (w, ok) := call w (fun s => creat s p) in if ok then append_all w p (cut data) else (w, false)
  end.
(** :15-63 WriteGuard: the paths registered so far, the last one first; drop *)
Fixpoint drop_guard (w : world) (paths : list path) : world :=
  match paths with
  | [] => w
  | p :: r => drop_guard (fst (call w (fun s => if is_dir s p then rmdir NAMES s p else unlink s p))) r
  end.
(** :105-125 write_bundle_with_vk; :77-94 write_bundle is the case without vk *)
Definition write_bundle_with_vk (w : world) (dir : path) (circuit solver : bytes) (vk : option bytes) (m : manifest M V) (c : bool) : world * bool :=
  let (w, ok) := call w (fun s => mkdir s dir) in
  if negb ok then (drop_guard w [], false) else
  let guard := [dir] in
  let (w, ok) := write_blob w (CIRCUIT :: dir) circuit c in
  if negb ok then (drop_guard w guard, false) else
  let guard := (CIRCUIT :: dir) :: guard in
  let (w, ok) := write_blob w (WITNESS_SOLVER :: dir) solver c in
  if negb ok then (drop_guard w guard, false) else
  let guard := (WITNESS_SOLVER :: dir) :: guard in
  let (w, ok) := (match vk with Some v => write_blob w (VK :: dir) v c | None => (w, true) end) in
  if negb ok then (drop_guard w guard, false) else
  let guard := (match vk with Some _ => [VK :: dir] | None => [] end) ++ guard in
  let (w, ok) := serialize_to_file w (MANIFEST :: dir) m false in
  if negb ok then (drop_guard w guard, false) else (w, true).

(** Results of reading a file: NotFound is distinguished *)
Inductive read_result A := Ok (a : A) | NotFound | Failed.
Arguments Ok {A}. Arguments NotFound {A}. Arguments Failed {A}.
(** :213-224 read_blob and compress.rs:77-104 auto_reader *)
Definition read_blob (s : fs) (p : path) : read_result bytes :=
  match s p with
  | None => NotFound
  | Some Dir => Failed
  | Some (File content) => match auto_decompress_bytes z content with Some d => Ok d | None => Failed end
  end.
Definition read_manifest (s : fs) (p : path) : option (manifest M V) :=
  match s p with Some (File content) => deserialize_content z buf cd content | _ => None end.
(** :139-164 read_bundle *)
Definition read_bundle (s : fs) (dir : path) : option (blobs M V) :=
  let* m := read_manifest s (MANIFEST :: dir) in
  match read_blob s (CIRCUIT :: dir) with
  | Ok circuit =>
    match read_blob s (WITNESS_SOLVER :: dir) with
    | Ok solver =>
      match read_blob s (VK :: dir) with
      | Ok v => Some {| b_circuit := circuit; b_solver := solver; b_vk := Some v; b_metadata := metadata m; b_version := version m |}
      | NotFound => Some {| b_circuit := circuit; b_solver := solver; b_vk := None; b_metadata := metadata m; b_version := version m |}
      | Failed => None
      end
    | _ => None
    end
  | _ => None
  end.
(** :166-168, 179-196, 198-203 *)
Definition ok_of {A} (r : read_result A) : option A := match r with Ok a => Some a | _ => None end.
Definition read_circuit_blob (s : fs) (dir : path) : option bytes := ok_of (read_blob s (CIRCUIT :: dir)).
Definition read_vk_only (s : fs) (dir : path) : option bytes := ok_of (read_blob s (VK :: dir)).
Definition bundle_has_vk (s : fs) (dir : path) : bool := match s (VK :: dir) with Some _ => true | None => false end.
Definition read_bundle_metadata (s : fs) (dir : path) : option (option M * option V) :=
  let* m := read_manifest s (MANIFEST :: dir) in Some (metadata m, version m).
End Bundle.
