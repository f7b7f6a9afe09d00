(** What a transcript should bind *)
From Coq Require Import List ZArith Bool Arith.
From Verif Require Import Model.Transcript.
Import ListNotations.
Local Open Scope list_scope.

(** What each call of the hash function absorbs besides the previous digest, for a
    history without commitments: sampling [n] bytes hashes once per [D] bytes, the first
    time with what is pending; synchronising hashes once; unlocking hashes if something is
    pending. *)
Fixpoint absorbed (D : nat) (pending : bytes) (ops : list op) : list bytes :=
  match ops with
  | [] => []
  | Append b :: r => absorbed D (pending ++ b) r
  | Sample O :: r => absorbed D pending r
  | Sample n :: r => pending :: repeat [] ((n - 1) / D) ++ absorbed D [] r
  | Sync :: r => pending :: absorbed D [] r
  | Unlock :: r => match pending with [] => absorbed D [] r | _ => pending :: absorbed D [] r end
  | _ :: r => absorbed D pending r
  end.
(** What has been appended since the last hash *)
Fixpoint left_over (pending : bytes) (ops : list op) : bytes :=
  match ops with
  | [] => pending
  | Append b :: r => left_over (pending ++ b) r
  | Sample O :: r => left_over pending r
  | Sample _ :: r | Sync :: r | Unlock :: r => left_over [] r
  | _ :: r => left_over pending r
  end.
(** The hash chain *)
Definition chain (H : bytes -> bytes) (d : bytes) (l : list bytes) : bytes := fold_left (fun d s => H (d ++ s)) l d.
Definition no_commit (ops : list op) : Prop := forall b, ~ In (Commit b) ops.
(** Two hash inputs of the runs that collide *)
Definition collision (H : bytes -> bytes) (q : list bytes) : Prop := exists x y, In x q /\ In y q /\ x <> y /\ H x = H y.
(** What was appended outside locked sections *)
Fixpoint unlocked (is_locked : bool) (ops : list op) : bytes :=
  match ops with
  | [] => []
  | Append b :: r | Commit b :: r => (if is_locked then [] else b) ++ unlocked is_locked r
  | Lock :: r => unlocked true r
  | Unlock :: r => unlocked false r
  | _ :: r => unlocked is_locked r
  end.
(** How many times a message is hashed *)
Definition everything (ops : list op) : bytes := flat_map (fun o => match o with Append b => b | _ => [] end) ops.
(** [k] digests in a row, the first one absorbing [s] *)
Fixpoint squeeze (H : bytes -> bytes) (k : nat) (d s : bytes) : bytes :=
  match k with O => [] | S k => H (d ++ s) ++ squeeze H k (H (d ++ s)) [] end.
(** The challenges of a history without commitments *)
Fixpoint sampled (H : bytes -> bytes) (D : nat) (d pending : bytes) (ops : list op) : list bytes :=
  match ops with
  | [] => []
  | o :: r =>
    (match o with Sample n => firstn n (squeeze H n d pending) | _ => [] end) ::
    (let d' := chain H d (absorbed D pending [o]) in sampled H D d' (left_over pending [o]) r)
  end.
(** A message cut into pieces of [size] bytes, and filled up with zeros *)
Fixpoint pieces (fuel size : nat) (l : bytes) : list bytes :=
  match fuel, l with S fuel, _ :: _ => firstn size l :: pieces fuel size (skipn size l) | _, _ => [] end.
Definition filled (size : nat) (l : bytes) : bytes := l ++ repeat 0%Z ((size - length l mod size) mod size).
