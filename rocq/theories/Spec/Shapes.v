(** Tensor shapes and row-major indexing. *)
From Coq Require Import List Arith ZArith.
Import ListNotations.

Definition prod (shape : list nat) : nat := fold_right Nat.mul 1 shape.

(** Coordinates of an element of a tensor of the given shape. *)
Definition in_range (coords shape : list nat) : Prop := Forall2 lt coords shape.

(** Row-major position: ((c0 * s1 + c1) * s2 + c2) ... *)
Definition row_major (coords shape : list nat) : nat :=
  fold_left (fun acc cs => acc * snd cs + fst cs) (combine coords shape) 0.

(** Multidirectional broadcasting of two dimensions. *)
Definition dims_agree (a b r : nat) : Prop := (a = b /\ r = a) \/ (a = 1 /\ r = b) \/ (b = 1 /\ r = a).
(** Dimension [i] counted from the right; missing dimensions are 1. *)
Definition dim_from_right (shape : list nat) (i : nat) : nat := nth i (rev shape) 1.
(** [r] is the common shape of [a] and [b]. *)
Definition broadcasts_to (a b r : list nat) : Prop :=
  length r = Nat.max (length a) (length b) /\
  forall i, i < length r -> dims_agree (dim_from_right a i) (dim_from_right b i) (dim_from_right r i).

(** [shape] can be expanded to [out]. *)
Definition expands_to (shape out : list nat) : Prop :=
  length shape <= length out /\
  Forall2 (fun s o => s = 1 \/ s = o) shape (skipn (length out - length shape) out).
(** The coordinates read in a tensor of shape [shape] expanded to the rank of [oc]. *)
Definition read_coords (oc shape : list nat) : list nat :=
  map (fun cs => if snd cs =? 1 then 0 else fst cs)
    (combine (skipn (length oc - length shape) oc) shape).

(** Reduction over [axes]: the output coordinates to which the element at [ic]
    contributes, with the reduced axes kept as 0, or removed. *)
Definition is_axis (axes : list nat) (i : nat) : bool := existsb (Nat.eqb i) axes.
Definition reduced (axes : list nat) (keep : bool) (ic : list nat) : list nat :=
  if keep then map (fun e => if is_axis axes (fst e) then 0 else snd e) (combine (seq 0 (length ic)) ic)
  else map snd (filter (fun e => negb (is_axis axes (fst e))) (combine (seq 0 (length ic)) ic)).
Definition reduced_shape (axes : list nat) (keep : bool) (shape : list nat) : list nat :=
  if keep then map (fun e => if is_axis axes (fst e) then 1 else snd e) (combine (seq 0 (length shape)) shape)
  else map snd (filter (fun e => negb (is_axis axes (fst e))) (combine (seq 0 (length shape)) shape)).

(** ONNX axes: negative ones count from the end. *)
Definition valid_axis (rank a : Z) : Prop := (- rank <= a < rank)%Z.
Definition axis_position (rank a : Z) : nat := Z.to_nat (if (a <? 0)%Z then a + rank else a)%Z.

(** [out] is the shape [shape] with a single -1, if any, replaced so that a tensor of
    [size] elements has that shape. *)
Definition zprod (l : list Z) : Z := fold_right Z.mul 1%Z l.
Definition resolves (size : Z) (shape out : list Z) : Prop :=
  Forall2 (fun d o => (0 < d /\ o = d) \/ (d = -1 /\ 0 <= o))%Z shape out /\
  length (filter (Z.eqb (-1)) shape) <= 1 /\ zprod out = size.
