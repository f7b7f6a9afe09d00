(** The Fiat-Shamir transcript (C37, C71, C72). *)
From Coq Require Import List ZArith Bool Arith.
From Verif Require Import Model.Transcript Spec.Transcript.
From Verif.Proofs Require Transcript TranscriptMain.
Import ListNotations.
Local Open Scope list_scope.

(** C37.  Two histories without commitments that end by sampling a digest and sample the
    same bytes have appended the same bytes, or two of their hash inputs collide. *)
Theorem C37_challenge_binds_partial (H : bytes -> bytes) (D : nat) : 0 < D -> (forall x, length (H x) = D) ->
  forall ops1 ops2 t1 t2 outs1 outs2, no_commit ops1 -> no_commit ops2 ->
  run H D (new D) (ops1 ++ [Sample D]) = Some (t1, outs1) -> run H D (new D) (ops2 ++ [Sample D]) = Some (t2, outs2) ->
  length (queries t1) = length (queries t2) -> last outs1 [] = last outs2 [] -> everything ops1 = everything ops2 \/ collision H (queries t1 ++ queries t2).
Proof. exact (TranscriptMain.challenge_binds H D). Qed.
Print Assumptions C37_challenge_binds_partial.
(** They have even absorbed the same messages between the same hash calls. *)
Theorem C37_messages_bound_partial (H : bytes -> bytes) (D : nat) : 0 < D -> (forall x, length (H x) = D) ->
  forall ops1 ops2 t1 t2 outs1 outs2, no_commit ops1 -> no_commit ops2 -> run H D (new D) ops1 = Some (t1, outs1) -> run H D (new D) ops2 = Some (t2, outs2) ->
  length (queries t1) = length (queries t2) -> digest t1 = digest t2 -> absorbed D [] ops1 = absorbed D [] ops2 \/ collision H (queries t1 ++ queries t2).
Proof. exact (Transcript.binding H D). Qed.
Print Assumptions C37_messages_bound_partial.
(** Also when they hash differently often, unless a hash input has the digest zero. *)
Theorem C37_any_length_partial (H : bytes -> bytes) (D : nat) : 0 < D -> (forall x, length (H x) = D) ->
  forall ops1 ops2 t1 t2 outs1 outs2, no_commit ops1 -> no_commit ops2 -> run H D (new D) ops1 = Some (t1, outs1) -> run H D (new D) ops2 = Some (t2, outs2) ->
  digest t1 = digest t2 -> absorbed D [] ops1 = absorbed D [] ops2 \/ collision H (queries t1 ++ queries t2) \/ exists x, In x (queries t1 ++ queries t2) /\ H x = repeat 0%Z D.
Proof. exact (Transcript.binding_any H D). Qed.
Print Assumptions C37_any_length_partial.
(** Histories that start with a commitment bind it too. *)
Theorem C37_first_commitment_partial (H : bytes -> bytes) (D : nat) : 0 < D -> (forall x, length (H x) = D) ->
  forall c1 c2 ops1 ops2 t1 t2 outs1 outs2, no_commit ops1 -> no_commit ops2 -> run H D (new D) (Commit c1 :: ops1) = Some (t1, outs1) -> run H D (new D) (Commit c2 :: ops2) = Some (t2, outs2) ->
  length (queries t1) = length (queries t2) -> digest t1 = digest t2 -> (c1 = c2 /\ absorbed D [] ops1 = absorbed D [] ops2) \/ collision H (queries t1 ++ queries t2).
Proof. exact (Transcript.binding_commit H D). Qed.
Print Assumptions C37_first_commitment_partial.
(** The digest and all challenges are those of a plain hash chain. *)
Theorem C37_hash_chain (H : bytes -> bytes) (D : nat) : 0 < D -> (forall x, length (H x) = D) ->
  forall ops t outs, no_commit ops -> run H D (new D) ops = Some (t, outs) ->
  digest t = chain H (repeat 0%Z D) (absorbed D [] ops) /\ outs = sampled H D (repeat 0%Z D) [] ops /\ length (queries t) = length (absorbed D [] ops).
Proof. exact (Transcript.refines H D). Qed.
Print Assumptions C37_hash_chain.
(** Nothing appended is left out of the chain. *)
Theorem C37_nothing_lost (D : nat) (ops : list op) : forall p, no_commit ops -> concat (absorbed D p ops) ++ left_over p ops = p ++ everything ops.
Proof. exact (Transcript.nothing_lost D ops). Qed.
Print Assumptions C37_nothing_lost.
(** A later commitment makes the transcript forget everything before it: whatever was
    appended before, the same challenges follow. *)
Theorem C37_commitment_forgets (H : bytes -> bytes) (D : nat) : 0 < D -> (forall x, length (H x) = D) ->
  forall before1 before2 t1 t2 outs1 outs2 c after, run H D (new D) before1 = Some (t1, outs1) -> run H D (new D) before2 = Some (t2, outs2) -> locked t1 = locked t2 ->
  forall u1 res, run H D t1 (Commit c :: after) = Some (u1, res) -> exists u2, run H D t2 (Commit c :: after) = Some (u2, res) /\ digest u2 = digest u1.
Proof. exact (Transcript.forgets H D). Qed.
Print Assumptions C37_commitment_forgets.
(** So the property fails for every hash function. *)
Theorem C37_binding_refuted (H : bytes -> bytes) (D : nat) : 0 < D -> (forall x, length (H x) = D) -> forall c n,
  exists before1 before2 t1 t2 outs1 outs2 u1 u2 res, everything before1 <> everything before2 /\
  run H D (new D) before1 = Some (t1, outs1) /\ run H D (new D) before2 = Some (t2, outs2) /\
  run H D t1 [Commit c; Sample n] = Some (u1, res) /\ run H D t2 [Commit c; Sample n] = Some (u2, res).
Proof. exact (TranscriptMain.forget_refuted H D). Qed.
Print Assumptions C37_binding_refuted.
Example C37_met : let ops := [Append [1; 2]%Z; Sample 3; Lock; Append [9%Z]; Unlock; Append [4%Z]; Sync; Sample 2] in
  no_commit ops /\ exists t outs, run TranscriptMain.toy_hash 2 (new 2) ops = Some (t, outs) /\ length (queries t) = 5 /\
  absorbed 2 [] ops = [[1; 2]%Z; []; [9%Z]; [4%Z]; []] /\ everything ops = [1; 2; 9; 4]%Z /\ unlocked false ops = [1; 2; 4]%Z.
Proof. exact TranscriptMain.binds_met. Qed.
Example C37_commit_met : exists t outs, run TranscriptMain.toy_hash 2 (new 2) [Commit [5%Z]; Append [1%Z]; Sample 2] = Some (t, outs) /\ length (queries t) = PCS_DIGEST_LOOP + 2.
Proof. exact TranscriptMain.commit_met. Qed.

(** C71.  The hashers over a field ignore zeros at the end of an incomplete chunk. *)
Theorem C71_padding_refuted : exists (size : nat) a b, 0 < size /\ a <> b /\ forall S (absorb : S -> bytes -> S) init, hash_to_state S absorb size init a = hash_to_state S absorb size init b.
Proof. exact TranscriptMain.pad_refuted. Qed.
Print Assumptions C71_padding_refuted.
Theorem C71_trailing_zeros (S : Type) (absorb : S -> bytes -> S) (size : nat) : 0 < size -> forall init input k, length input mod size <> 0 -> length input mod size + k < size ->
  hash_to_state S absorb size init (input ++ repeat 0%Z k) = hash_to_state S absorb size init input.
Proof. exact (Transcript.pad_collision S absorb size). Qed.
Print Assumptions C71_trailing_zeros.
(** They absorb the pieces of the message filled up with zeros, and messages of the same
    length have different pieces. *)
Theorem C71_absorbs_pieces_partial (S : Type) (absorb : S -> bytes -> S) (size : nat) : 0 < size -> forall init l,
  hash_to_state S absorb size init l = fold_left absorb (pieces (length l + size) size (filled size l)) init.
Proof. exact (TranscriptMain.hash_pieces S absorb size). Qed.
Print Assumptions C71_absorbs_pieces_partial.
Theorem C71_same_length_partial (size : nat) : 0 < size -> forall a b : bytes, length a = length b ->
  pieces (length a + size) size (filled size a) = pieces (length b + size) size (filled size b) -> a = b.
Proof. exact (TranscriptMain.pieces_inj size). Qed.
Print Assumptions C71_same_length_partial.

(** C72.  The proof consists of exactly what was appended outside locked sections, in
    order. *)
Theorem C72_proof_bytes (H : bytes -> bytes) (D : nat) : 0 < D -> (forall x, length (H x) = D) ->
  forall ops t outs, run H D (new D) ops = Some (t, outs) -> finalize H t = Some (unlocked false ops).
Proof. exact (Transcript.finalize_spec H D). Qed.
Print Assumptions C72_proof_bytes.
