(** The ONNX meaning of MaxPool on two spatial axes. *)
From Coq Require Import List Arith ZArith Bool.
From Verif Require Import Spec.Numbers Spec.Shapes Spec.Tensors Spec.Conv Spec.ConvTranspose Model.MaxPool.
Import ListNotations.

(** The window, its dilations, and its strides and padding. *)
Record pool := { win_h : nat; win_w : nat; dil_h : nat; dil_w : nat; moves : geometry }.

(** The number of windows on an axis of size [d]; with ceil_mode a last window may hang over
    the end, but must start within the image or the padding before it. *)
Definition windows (ceil : bool) (d k dil before after s : nat) : nat :=
  let rest := d + before + after - ((k - 1) * dil + 1) in
  if ceil then
    let n := (rest + s - 1) / s + 1 in if d + before <=? (n - 1) * s then n - 1 else n
  else rest / s + 1.
Definition pool_shape (ceil : bool) (P : pool) (x : tensor Z) : list nat :=
  match dims x with
  | [n; c; h; w] => [n; c; windows ceil h (win_h P) (dil_h P) (top (moves P)) (bottom (moves P)) (down (moves P));
                           windows ceil w (win_w P) (dil_w P) (left (moves P)) (right (moves P)) (across (moves P))]
  | _ => []
  end.

(** Row [i] of an image with [size] rows is under window [o]. *)
Definition covered (k dil s before size o i : nat) : Prop :=
  i < size /\ exists a, a < k /\ i + before = o * s + a * dil.
Definition row_covered (P : pool) (h o i : nat) : Prop := covered (win_h P) (dil_h P) (down (moves P)) (top (moves P)) h o i.
Definition column_covered (P : pool) (w o j : nat) : Prop := covered (win_w P) (dil_w P) (across (moves P)) (left (moves P)) w o j.

(** [m] is the largest element of the image under the window. *)
Definition largest_under (P : pool) (x : tensor Z) (h w n c o1 o2 : nat) (m : Z) : Prop :=
  (exists i j, row_covered P h o1 i /\ column_covered P w o2 j /\ elem x [n; c; i; j] = Some m) /\
  (forall i j v, row_covered P h o1 i -> column_covered P w o2 j -> elem x [n; c; i; j] = Some v -> (v <= m)%Z).

Definition max_pooled (ceil : bool) (P : pool) (x y : tensor Z) : Prop :=
  exists n ch h w, dims x = [n; ch; h; w] /\ dims y = pool_shape ceil P x /\
    forall c0 c1 c2 c3, in_range [c0; c1; c2; c3] (dims y) ->
      exists m, elem y [c0; c1; c2; c3] = Some m /\ largest_under P x h w c0 c1 c2 c3 m.

(** The operands fit: the window is not empty, moves, and is not larger than the padded image;
    and every window has part of the image under it. *)
Definition pool_fits (P : pool) (x : tensor Z) : Prop :=
  well_formed x /\ 0 < down (moves P) /\ 0 < across (moves P) /\ 0 < dil_h P /\ 0 < dil_w P /\ 0 < win_h P /\ 0 < win_w P /\
  exists n ch h w, dims x = [n; ch; h; w] /\
    (win_h P - 1) * dil_h P + 1 <= h + top (moves P) + bottom (moves P) /\
    (win_w P - 1) * dil_w P + 1 <= w + left (moves P) + right (moves P).
Definition windows_touch (P : pool) (x : tensor Z) : Prop :=
  exists n ch h w, dims x = [n; ch; h; w] /\
    (forall o, o < windows false h (win_h P) (dil_h P) (top (moves P)) (bottom (moves P)) (down (moves P)) -> exists i, row_covered P h o i) /\
    (forall o, o < windows false w (win_w P) (dil_w P) (left (moves P)) (right (moves P)) (across (moves P)) -> exists j, column_covered P w o j).

(** The attributes of the node say this, where an absent attribute has its ONNX default. *)
Definition mp_attributes (a : mp_node) (P : pool) (ceil : bool) : Prop :=
  mp_kernel a = Some [win_h P; win_w P] /\ says (mp_strides a) [1; 1] [down (moves P); across (moves P)] /\
  says (mp_pads a) [0; 0; 0; 0] [top (moves P); left (moves P); bottom (moves P); right (moves P)] /\
  says (mp_dilations a) [1; 1] [dil_h P; dil_w P] /\ mp_ceil_mode a = ceil.
(** ONNX asks that no side be padded by as much as the window. *)
Definition padding_below_window (P : pool) : Prop :=
  top (moves P) < win_h P /\ bottom (moves P) < win_h P /\ left (moves P) < win_w P /\ right (moves P) < win_w P.
