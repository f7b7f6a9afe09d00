(** The Fiat-Shamir transcript (prover/transcript/src/byte_hash_transcript.rs,
    transcript_utils.rs) and the padding of the field hashers (prover/hasher/src).
    The hash function is a parameter; its calls are recorded in [queries], which the code
    does not have.  Failed assertions are [None]. *)
From Coq Require Import List ZArith Bool Arith.
From Verif Require Import Base.Array.
Import ListNotations.
Local Open Scope list_scope.

Definition bytes := list Z.
(** :11-26; [start] is hash_start_index *)
Record transcript := { digest : bytes; proof : bytes; start : nat; locked : bool; locked_at : nat; queries : list bytes }.
(** :8 *)
Definition PCS_DIGEST_LOOP : nat := 1000.

Section Transcript.
(** [H] is the hasher, [D] its DIGEST_SIZE.  hash_inplace is the same function in all
    four hashers (sha2_256.rs:19-31, keccak_256.rs:17-30, mimc.rs:45-55,
    poseidon/impls.rs:153-163). *)
Variables (H : bytes -> bytes) (D : nat).

(** :44-53 *)
Definition new : transcript := {| digest := repeat 0%Z D; proof := []; start := 0; locked := false; locked_at := 0; queries := [] |}.
(** :126-140 refresh_digest *)
Definition refresh (t : transcript) : transcript :=
  let input := if start t <? length (proof t) then digest t ++ skipn (start t) (proof t) else digest t in
  {| digest := H input; proof := proof t; start := if start t <? length (proof t) then length (proof t) else start t;
     locked := locked t; locked_at := locked_at t; queries := queries t ++ [input] |}.
(** :68-70 append_u8_slice *)
Definition append (t : transcript) (b : bytes) : transcript :=
  {| digest := digest t; proof := proof t ++ b; start := start t; locked := locked t; locked_at := locked_at t; queries := queries t |}.
(** :101-105 set_state *)
Definition set_state (t : transcript) (s : bytes) : option transcript :=
  if length s =? D then Some {| digest := s; proof := proof t; start := length (proof t); locked := locked t; locked_at := locked_at t; queries := queries t |} else None.
(** :33-40 hash_init_commitment: the digest and the hash inputs *)
Fixpoint rehash (n : nat) (d : bytes) : bytes * list bytes :=
  match n with O => (d, []) | S m => let (r, q) := rehash m (H d) in (r, d :: q) end.
Definition hash_init_commitment (c : bytes) : bytes * list bytes :=
  let (d, q) := rehash PCS_DIGEST_LOOP (H c) in (d, c :: q).
(** :56-64 append_commitment *)
Definition append_commitment (t : transcript) (c : bytes) : option transcript :=
  let t := append t c in
  let (d, q) := hash_init_commitment c in
  set_state {| digest := digest t; proof := proof t; start := start t; locked := locked t; locked_at := locked_at t; queries := queries t ++ q |} d.
(** :73-85 generate_u8_slice; [fuel] at least the number of bytes *)
Fixpoint generate (fuel : nat) (t : transcript) (n : nat) : transcript * bytes :=
  match fuel, n with
  | S fuel, S _ =>
    let t := refresh t in
    let k := Nat.min D n in
    let (t', r) := generate fuel t (n - k) in (t', firstn k (digest t) ++ r)
  | _, _ => (t, [])
  end.
(** :108-123 lock_proof, unlock_proof; [resize] cuts, or extends with zeros *)
Definition lock (t : transcript) : option transcript :=
  if locked t then None
  else Some {| digest := digest t; proof := proof t; start := start t; locked := true; locked_at := length (proof t); queries := queries t |}.
Definition unlock (t : transcript) : option transcript :=
  if locked t then
    let t := if start t <? length (proof t) then refresh t else t in
    let proof' := firstn (locked_at t) (proof t) ++ repeat 0%Z (locked_at t - length (proof t)) in
    Some {| digest := digest t; proof := proof'; start := length proof'; locked := false; locked_at := locked_at t; queries := queries t |}
  else None.
(** :88-92 finalize_and_get_proof *)
Definition finalize (t : transcript) : option bytes :=
  if locked t then let* t := unlock t in Some (proof t) else Some (proof t).

(** The operations; [Sync] is transcript_verifier_sync with more than one process
    (transcript_utils.rs:17-25), and the root's side of the broadcast *)
Inductive op := Append (b : bytes) | Commit (b : bytes) | Sample (n : nat) | Sync | Lock | Unlock.
Definition step (t : transcript) (o : op) : option (transcript * bytes) :=
  match o with
  | Append b => Some (append t b, [])
  | Commit b => let* t := append_commitment t b in Some (t, [])
  | Sample n => Some (generate n t n)
  | Sync => let t := refresh t in let* t := set_state t (digest t) in Some (t, [])
  | Lock => let* t := lock t in Some (t, [])
  | Unlock => let* t := unlock t in Some (t, [])
  end.
(** A history: the last state and what was sampled *)
Fixpoint run (t : transcript) (ops : list op) : option (transcript * list bytes) :=
  match ops with
  | [] => Some (t, [])
  | o :: r => let* x := step t o in let* y := run (fst x) r in Some (fst y, snd x :: snd y)
  end.
End Transcript.

(** ** Padding: hash_u8_to_state (mimc.rs:13-32, poseidon/impls.rs:106-144).  [absorb] mixes
    one full chunk of [size] bytes into the state *)
Section Padding.
Variables (S : Type) (absorb : S -> bytes -> S) (size : nat).
Fixpoint chunks_exact (fuel : nat) (s : S) (input : bytes) : S * bytes :=
  match fuel with
  | O => (s, input)
  | Datatypes.S fuel => if length input <? size then (s, input) else chunks_exact fuel (absorb s (firstn size input)) (skipn size input)
  end.
Definition hash_to_state (init : S) (input : bytes) : S :=
  let (s, remainder) := chunks_exact (length input) init input in
  match remainder with [] => s | _ => absorb s (remainder ++ repeat 0%Z (size - length remainder)) end.
End Padding.
