(** Tensors and the ONNX meaning of the operators that move data without computing. *)
From Coq Require Import List Arith ZArith Bool.
From Verif Require Import Spec.Shapes.
Import ListNotations.

(** A tensor: its dimensions and its elements in row-major order. *)
Record tensor (T : Type) := { dims : list nat; flat : list T }.
Arguments dims {T} _.
Arguments flat {T} _.
Definition well_formed {T} (t : tensor T) : Prop := length (flat t) = prod (dims t).

(** The element at coordinates [c]; there is none outside the tensor. *)
Definition in_rangeb (c s : list nat) : bool :=
  (length c =? length s) && forallb (fun p => fst p <? snd p) (combine c s).
Definition elem {T} (t : tensor T) (c : list nat) : option T :=
  if in_rangeb c (dims t) then nth_error (flat t) (row_major c (dims t)) else None.

(** [pick p l]: the list of the [l_i] for [i] in [p]. *)
Definition pick (p l : list nat) : list nat := map (fun i => nth i l 0) p.
(** [l] with position [i] replaced by [v]. *)
Definition put {A} (i : nat) (v : A) (l : list A) : list A := firstn i l ++ v :: skipn (S i) l.
(** Coordinates moved by [o] along [axis]. *)
Definition shift (axis o : nat) (c : list nat) : list nat := put axis (nth axis c 0 + o) c.
Definition map2 {A B C} (f : A -> B -> C) (l : list A) (m : list B) : list C :=
  map (fun p => f (fst p) (snd p)) (combine l m).

(** *** Transpose: y[c_(p0), c_(p1), ...] = x[c0, c1, ...]. *)
Definition permutation_of (n : nat) (p : list nat) : Prop := length p = n /\ NoDup p /\ Forall (fun i => i < n) p.
Definition transposed {T} (p : list nat) (x y : tensor T) : Prop :=
  dims y = pick p (dims x) /\
  forall c, in_range c (dims x) -> elem y (pick p c) = elem x c.
(** The permutation an optional [perm] attribute stands for: reversal when it is absent. *)
Definition perm_of (rank : nat) (perm : option (list Z)) (p : list nat) : Prop :=
  match perm with
  | None => p = rev (seq 0 rank)
  | Some l => Forall (valid_axis (Z.of_nat rank)) l /\ p = map (axis_position (Z.of_nat rank)) l
  end.

(** *** Slice.  The positions start, start+step, ... strictly before [stop] along an
    axis of size [d]; a negative start or stop counts from the end. *)
Definition from_end (d : nat) (i : Z) : Z := if (i <? 0)%Z then (i + Z.of_nat d)%Z else i.
Definition slice_positions (d : nat) (start stop step : Z) : list nat :=
  let s := from_end d start in
  let e := from_end d stop in
  if (0 <? step)%Z then
    filter (fun i => let i := Z.of_nat i in
      (Z.max 0 s <=? i)%Z && (i <? e)%Z && ((i - Z.max 0 s) mod step =? 0)%Z) (seq 0 d)
  else
    rev (filter (fun i => let i := Z.of_nat i in
      (i <=? Z.min (Z.of_nat d - 1) s)%Z && (e <? i)%Z && ((Z.min (Z.of_nat d - 1) s - i) mod (- step) =? 0)%Z) (seq 0 d)).
(** The positions kept along each axis, when the axes listed are cut and the others are not. *)
Definition slice_ranges (s axes : list nat) (starts stops steps : list Z) (ranges : list (list nat)) : Prop :=
  length ranges = length s /\
  (forall k, k < length s -> ~ In k axes -> nth k ranges [] = seq 0 (nth k s 0)) /\
  (forall i, i < length axes -> nth (nth i axes 0) ranges [] =
    slice_positions (nth (nth i axes 0) s 0) (nth i starts 0%Z) (nth i stops 0%Z) (nth i steps 0%Z)).
(** Axes and steps default to the leading axes and to 1. *)
Definition slice_axes (n : nat) (axes_in : option (list Z)) : list Z :=
  match axes_in with Some ax => ax | None => map Z.of_nat (seq 0 n) end.
Definition slice_steps (n : nat) (steps_in : option (list Z)) : list Z :=
  match steps_in with Some st => st | None => repeat 1%Z n end.
(** [ranges k] are the positions kept along axis [k]. *)
Definition selected {T} (ranges : list (list nat)) (x y : tensor T) : Prop :=
  length ranges = length (dims x) /\ dims y = map (@length nat) ranges /\
  forall c, in_range c (dims y) -> elem y c = elem x (map2 (fun r i => nth i r 0) ranges c).

(** *** Concat, and Split, which is its inverse. *)
Definition axis_dim {T} (axis : nat) (x : tensor T) : nat := nth axis (dims x) 0.
Definition concatenated {T} (axis : nat) (xs : list (tensor T)) (y : tensor T) : Prop :=
  axis < length (dims y) /\
  axis_dim axis y = list_sum (map (axis_dim axis) xs) /\
  forall before x after, xs = before ++ x :: after ->
    put axis 0 (dims x) = put axis 0 (dims y) /\ length (dims x) = length (dims y) /\
    forall c, in_range c (dims x) -> elem y (shift axis (list_sum (map (axis_dim axis) before)) c) = elem x c.

(** The sizes of the pieces of a split of an axis: those given, or all the same. *)
Definition split_sizes_of (axis_dim : nat) (sizes : option (list Z)) (num_outputs : nat) (szs : list nat) : Prop :=
  length szs = num_outputs /\ list_sum szs = axis_dim /\
  match sizes with
  | Some v => v = map Z.of_nat szs
  | None => num_outputs <> 0 /\ exists k, szs = repeat k num_outputs
  end.

(** *** Pad with a constant. *)
Definition padded {T} (zero : T) (begins ends : list nat) (x y : tensor T) : Prop :=
  dims y = map2 Nat.add (map2 Nat.add (dims x) begins) ends /\
  (forall c, in_range c (dims x) -> elem y (map2 Nat.add c begins) = elem x c) /\
  (forall c, in_range c (dims y) -> (forall i, in_range i (dims x) -> c <> map2 Nat.add i begins) -> elem y c = Some zero).

(** The amounts per axis, when [p] gives them for [axes] only. *)
Definition pads_on (rank : nat) (axes p : list nat) : list nat :=
  map (fun i => match find (fun e => fst e =? i) (combine axes p) with Some e => snd e | None => 0 end) (seq 0 rank).

(** *** Gather and GatherElements; an index below zero counts from the end. *)
Definition valid_index (d : nat) (i : Z) : Prop := (- Z.of_nat d <= i < Z.of_nat d)%Z.
Definition position (d : nat) (i : Z) : nat := Z.to_nat (from_end d i).
Definition gathered {T} (axis : nat) (idx : tensor Z) (x y : tensor T) : Prop :=
  dims y = firstn axis (dims x) ++ dims idx ++ skipn (S axis) (dims x) /\
  forall a i b z, in_range a (firstn axis (dims x)) -> in_range b (skipn (S axis) (dims x)) -> elem idx i = Some z ->
    elem y (a ++ i ++ b) = elem x (a ++ position (axis_dim axis x) z :: b).
Definition elements_gathered {T} (axis : nat) (idx : tensor Z) (x y : tensor T) : Prop :=
  dims y = dims idx /\
  forall c z, elem idx c = Some z -> elem y c = elem x (put axis (position (axis_dim axis x) z) c).

(** *** ScatterND.  [idx] has dimensions q ++ [k]: it holds, for each coordinate [u] of
    shape [q], the [k] leading coordinates of the slice replaced by [upd[u]]. *)
Definition target {T} (idx : tensor Z) (x : tensor T) (u : list nat) (c : list nat) : Prop :=
  Forall2 (fun j p => exists z, elem idx (u ++ [j]) = Some z /\ valid_index (nth j (dims x) 0) z /\
    p = position (nth j (dims x) 0) z) (seq 0 (length c)) c.
Definition scattered {T} (q : list nat) (k : nat) (idx : tensor Z) (upd x y : tensor T) : Prop :=
  dims y = dims x /\
  (forall u p b, in_range u q -> length p = k -> target idx x u p -> in_range b (skipn k (dims x)) ->
    elem y (p ++ b) = elem upd (u ++ b)) /\
  (forall c, in_range c (dims x) -> (forall u, in_range u q -> ~ target idx x u (firstn k c)) -> elem y c = elem x c).

(** *** Tile and Expand. *)
Definition tiled {T} (repeats : list nat) (x y : tensor T) : Prop :=
  dims y = map2 Nat.mul (dims x) repeats /\
  forall c, in_range c (dims y) -> elem y c = elem x (map2 Nat.modulo c (dims x)).
Definition expanded {T} (x y : tensor T) : Prop :=
  expands_to (dims x) (dims y) /\
  forall c, in_range c (dims y) -> elem y c = elem x (read_coords c (dims x)).

(** *** Where: broadcasting choice. *)
Definition chosen {T} (cond : tensor Z) (x y out : tensor T) : Prop :=
  forall c, in_range c (dims out) -> exists b, elem cond (read_coords c (dims cond)) = Some b /\
    elem out c = if (b =? 0)%Z then elem y (read_coords c (dims y)) else elem x (read_coords c (dims x)).
