(** Circuit bundles on disk (C40, C41, C69). *)
From Coq Require Import List ZArith Bool Arith.
From Verif Require Import Base.Machine Model.Io Spec.Io.
From Verif.Proofs Require Bundle IoMain.
Import ListNotations.
Local Open Scope list_scope.

(** C40.  When the bundle was stored uncompressed (whatever else failed) or nothing failed,
    a successful write is read back, provided that no blob stored as it is starts like a
    zstd frame. *)
Theorem C40_bundle_round_trip_partial {M V} (z : zstd) (buf : buffering) (cd : codec (manifest M V)) cut flushed : zstd_ok z -> buffering_ok buf -> codec_ok cd -> cut_ok cut ->
  forall dir circuit solver vk m (c : bool) s0 f w, tree s0 -> s0 dir = None -> payload_ok z cd m false -> c = false \/ f = [] ->
  stored_ok circuit c -> stored_ok solver c -> (forall v, vk = Some v -> stored_ok v c) ->
  write_bundle_with_vk z cd cut flushed (start s0 f) dir circuit solver vk m c = (w, true) ->
  let s := now w in
  read_bundle z buf cd s dir = Some {| b_circuit := circuit; b_solver := solver; b_vk := vk; b_metadata := metadata m; b_version := version m |} /\
  read_circuit_blob z s dir = Some circuit /\ read_vk_only z s dir = vk /\ bundle_has_vk s dir = match vk with Some _ => true | None => false end /\
  read_bundle_metadata z buf cd s dir = Some (metadata m, version m).
Proof. exact (IoMain.bundle_round_trip z buf cd cut flushed). Qed.
Print Assumptions C40_bundle_round_trip_partial.
(** Without faults the write succeeds when the directory is new, its parent exists and the
    manifest can be encoded. *)
Theorem C40_write_succeeds {M V} (z : zstd) (cd : codec (manifest M V)) cut flushed : cut_ok cut ->
  forall dir circuit solver vk m (c : bool) s0, tree s0 -> s0 dir = None -> parent_ok s0 dir = true -> encode cd m <> None ->
  exists w, write_bundle_with_vk z cd cut flushed (start s0 []) dir circuit solver vk m c = (w, true).
Proof. exact (IoMain.write_succeeds z cd cut flushed). Qed.
Print Assumptions C40_write_succeeds.
(** A circuit stored as it is that starts like a zstd frame comes back changed. *)
Theorem C40_frame_refuted : exists (z : zstd) (buf : buffering) (cd : codec (manifest Empty_set Empty_set)) cut flushed, zstd_ok z /\ buffering_ok buf /\ codec_ok cd /\ cut_ok cut /\
  exists dir circuit solver m s0 w b, tree s0 /\ s0 dir = None /\ write_bundle_with_vk z cd cut flushed (start s0 []) dir circuit solver None m false = (w, true) /\
  read_bundle z buf cd (now w) dir = Some b /\ b_circuit b <> circuit.
Proof. exact IoMain.frame_refuted. Qed.
Print Assumptions C40_frame_refuted.
(** A compressed write whose last flush fails reports success, and the circuit is gone. *)
Theorem C40_flush_refuted : exists (z : zstd) (buf : buffering) (cd : codec (manifest Empty_set Empty_set)) cut flushed, zstd_ok z /\ buffering_ok buf /\ codec_ok cd /\ cut_ok cut /\
  exists dir circuit solver m s0 f w b, tree s0 /\ s0 dir = None /\ write_bundle_with_vk z cd cut flushed (start s0 f) dir circuit solver None m true = (w, true) /\
  read_bundle z buf cd (now w) dir = Some b /\ b_circuit b <> circuit.
Proof. exact IoMain.flush_refuted. Qed.
Print Assumptions C40_flush_refuted.
Example C40_met : tree IoMain.root /\ IoMain.root [7] = None /\ payload_ok IoMain.toy_zstd IoMain.empty_map IoMain.no_manifest_data false /\
  stored_ok [1; 2; 3]%Z false /\ exists w, write_bundle_with_vk IoMain.toy_zstd IoMain.empty_map IoMain.whole (fun _ => 0) (start IoMain.root []) [7] [1; 2; 3]%Z [4%Z] (Some [5; 6]%Z) IoMain.no_manifest_data false = (w, true) /\
  length (history w) = 9 /\ now w [CIRCUIT; 7] = Some (File [1; 2; 3]%Z) /\ now w [VK; 7] = Some (File [5; 6]%Z).
Proof. exact IoMain.bundle_met. Qed.

(** C41.  In every state the file system goes through while a bundle is written, and in
    the last one, [read_bundle] fails or the bundle is complete; nothing else changes.
    A successful write leaves a complete bundle, a failed one leaves none. *)
Theorem C41_crash_safe_partial {M V} (z : zstd) (buf : buffering) (cd : codec (manifest M V)) cut flushed : codec_ok cd -> cut_ok cut ->
  forall dir circuit solver vk m (c : bool) s0 f w ok, tree s0 -> s0 dir = None -> payload_ok z cd m false -> c = false \/ f = [] ->
  write_bundle_with_vk z cd cut flushed (start s0 f) dir circuit solver vk m c = (w, ok) ->
  (forall s, In s (history w) -> untouched s0 dir s /\ (read_bundle z buf cd s dir = None \/ complete z cd dir circuit solver vk m c s)) /\
  (ok = true -> untouched s0 dir (now w) /\ complete z cd dir circuit solver vk m c (now w)) /\
  (ok = false -> untouched s0 dir (now w) /\ read_bundle z buf cd (now w) dir = None).
Proof. exact (IoMain.crash_safe z buf cd cut flushed). Qed.
Print Assumptions C41_crash_safe_partial.
(** So a reader sees no bundle or the right one. *)
Theorem C41_crash_reader_partial {M V} (z : zstd) (buf : buffering) (cd : codec (manifest M V)) cut flushed : zstd_ok z -> buffering_ok buf -> codec_ok cd -> cut_ok cut ->
  forall dir circuit solver vk m (c : bool) s0 f w ok, tree s0 -> s0 dir = None -> payload_ok z cd m false -> c = false \/ f = [] ->
  stored_ok circuit c -> stored_ok solver c -> (forall v, vk = Some v -> stored_ok v c) ->
  write_bundle_with_vk z cd cut flushed (start s0 f) dir circuit solver vk m c = (w, ok) ->
  forall s, In s (history w) -> read_bundle z buf cd s dir = None \/
  read_bundle z buf cd s dir = Some {| b_circuit := circuit; b_solver := solver; b_vk := vk; b_metadata := metadata m; b_version := version m |}.
Proof. exact (IoMain.crash_reader z buf cd cut flushed). Qed.
Print Assumptions C41_crash_reader_partial.
(** An existing directory (or file) is never modified: not a single call takes effect. *)
Theorem C41_existing_untouched {M V} (z : zstd) (cd : codec (manifest M V)) cut flushed dir circuit solver vk m c s0 f : s0 dir <> None ->
  exists f', write_bundle_with_vk z cd cut flushed (start s0 f) dir circuit solver vk m c = (start s0 f', false).
Proof. exact (Bundle.write_existing z cd cut flushed dir circuit solver vk m c s0 f). Qed.
Print Assumptions C41_existing_untouched.
(** The reader of the circuit alone sees an empty circuit at some crash point. *)
Theorem C41_circuit_reader_refuted : exists (z : zstd) (cd : codec (manifest Empty_set Empty_set)) cut flushed, zstd_ok z /\ codec_ok cd /\ cut_ok cut /\
  exists dir circuit solver m s0 w, tree s0 /\ s0 dir = None /\ stored_ok circuit false /\ write_bundle_with_vk z cd cut flushed (start s0 []) dir circuit solver None m false = (w, true) /\
  exists s circuit', In s (history w) /\ read_circuit_blob z s dir = Some circuit' /\ circuit' <> circuit.
Proof. exact IoMain.circuit_reader_refuted. Qed.
Print Assumptions C41_circuit_reader_refuted.
(** Nothing is synced: after a power loss the whole bundle can be read with another circuit. *)
Theorem C41_power_loss_refuted : exists (z : zstd) (buf : buffering) (cd : codec (manifest Empty_set Empty_set)) cut flushed, zstd_ok z /\ buffering_ok buf /\ codec_ok cd /\ cut_ok cut /\
  exists dir circuit solver m s0 w s b, tree s0 /\ s0 dir = None /\ stored_ok circuit false /\ write_bundle_with_vk z cd cut flushed (start s0 []) dir circuit solver None m false = (w, true) /\
  reduced (now w) s /\ read_bundle z buf cd s dir = Some b /\ b_circuit b <> circuit.
Proof. exact IoMain.power_loss_refuted. Qed.
Print Assumptions C41_power_loss_refuted.

(** C69.  A failed write does not always clean up: what it leaves makes every later write
    to the same directory fail. *)
Theorem C69_cleanup_refuted : exists (z : zstd) (cd : codec (manifest Empty_set Empty_set)) cut flushed, zstd_ok z /\ codec_ok cd /\ cut_ok cut /\
  exists dir circuit solver m s0 f w, tree s0 /\ s0 dir = None /\ write_bundle_with_vk z cd cut flushed (start s0 f) dir circuit solver None m false = (w, false) /\
  now w dir <> s0 dir /\ forall f', exists w', write_bundle_with_vk z cd cut flushed (start (now w) f') dir circuit solver None m false = (w', false).
Proof. exact IoMain.cleanup_refuted. Qed.
Print Assumptions C69_cleanup_refuted.
(** It does when the manifest cannot be encoded and no call fails. *)
Theorem C69_cleanup_partial {M V} (z : zstd) (cd : codec (manifest M V)) cut flushed : cut_ok cut ->
  forall dir circuit solver vk m (c : bool) s0, tree s0 -> s0 dir = None -> parent_ok s0 dir = true -> encode cd m = None ->
  exists w, write_bundle_with_vk z cd cut flushed (start s0 []) dir circuit solver vk m c = (w, false) /\ same (now w) s0.
Proof. exact (IoMain.write_undone' z cd cut flushed). Qed.
Print Assumptions C69_cleanup_partial.
