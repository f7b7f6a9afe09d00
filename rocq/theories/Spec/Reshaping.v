(** The ONNX meaning of the layers that give a tensor another shape, and of those that make a
    tensor from constants. *)
From Coq Require Import List Arith ZArith Bool QArith.
From Verif Require Import Spec.Shapes Spec.Tensors.
Import ListNotations.
Local Open Scope nat_scope.

(** *** Reshape.  In the target, -1 (at most once) stands for whatever keeps the number of
    elements, and 0 for the input's dimension at that place, or for 0 with [allowzero]. *)
Definition target_dim (allowzero : bool) (input : list nat) (i : nat) (d : Z) (o : nat) : Prop :=
  d = (-1)%Z \/
  d = 0%Z /\ (if allowzero then o = 0 else nth_error input i = Some o) \/
  (0 < d)%Z /\ Z.of_nat o = d.
Definition reshapes_to (allowzero : bool) (input : list nat) (target : list Z) (out : list nat) : Prop :=
  length out = length target /\
  (forall i d o, nth_error target i = Some d -> nth_error out i = Some o -> target_dim allowzero input i d o) /\
  (forall i j, nth_error target i = Some (-1)%Z -> nth_error target j = Some (-1)%Z -> i = j) /\
  prod out = prod input.

(** Numbers of the machine: 64-bit integers, and a rank and axes that are such. *)
Definition i64 (z : Z) : Prop := (- 2 ^ 63 <= z < 2 ^ 63)%Z.
Definition machine (axes : list Z) (rank : nat) : Prop := (Z.of_nat rank < 2 ^ 63)%Z /\ Forall i64 axes.
(** Axes below zero count from the end; they must lie in the tensor and be distinct. *)
Definition positions (axes : list Z) (rank : nat) : list nat := map (axis_position (Z.of_nat rank)) axes.
Definition good_axes (axes : list Z) (rank : nat) : Prop := Forall (valid_axis (Z.of_nat rank)) axes /\ NoDup (positions axes rank).

(** *** Squeeze and Unsqueeze.  The list [l] without the positions [axes], counted from [k]. *)
Fixpoint without {A} (axes : list nat) (k : nat) (l : list A) : list A :=
  match l with
  | [] => []
  | a :: r => if existsb (Nat.eqb k) axes then without axes (S k) r else a :: without axes (S k) r
  end.
(** [y] is [x] without the axes [axes], all of size 1. *)
Definition squeezed {T} (axes : list nat) (x y : tensor T) : Prop :=
  Forall (fun i => nth_error (dims x) i = Some 1) axes /\
  dims y = without axes 0 (dims x) /\
  forall c, in_range c (dims x) -> elem y (without axes 0 c) = elem x c.
(** The axes of size 1. *)
Definition unit_axes (s : list nat) : list nat := filter (fun i => nth i s 0 =? 1) (seq 0 (length s)).

(** *** Flatten: the dimensions before [axis] become one, and those from it on another. *)
Definition flattened {T} (axis : nat) (x y : tensor T) : Prop :=
  dims y = [prod (firstn axis (dims x)); prod (skipn axis (dims x))] /\
  forall a b, in_range a (firstn axis (dims x)) -> in_range b (skipn axis (dims x)) ->
    elem y [row_major a (firstn axis (dims x)); row_major b (skipn axis (dims x))] = elem x (a ++ b).

(** *** Range: start, start + delta, ... strictly before [limit]. *)
Definition before_limit (delta v limit : Z) : bool := if (0 <? delta)%Z then (v <? limit)%Z else (limit <? v)%Z.
Definition progression (start limit delta : Z) (l : list Z) : Prop :=
  forall i, nth_error l i =
    let v := (start + Z.of_nat i * delta)%Z in if before_limit delta v limit then Some v else None.

(** *** Shape: the dimensions at the positions from [start] up to, but not, [stop]; below zero
    these count from the end. *)
Definition dims_between (s : list nat) (start stop : Z) : list nat :=
  map (fun i => nth i s 0) (filter (fun i => (from_end (length s) start <=? Z.of_nat i)%Z && (Z.of_nat i <? from_end (length s) stop)%Z)
    (seq 0 (length s))).

(** *** ConstantOfShape. *)
Definition filled {T} (v : T) (s : list nat) (y : tensor T) : Prop :=
  dims y = s /\ forall c, in_range c s -> elem y c = Some v.
