(** GridSample, as ONNX defines it: the output at [b, ch, i, j] is read from the image at the
    point that grid[b, i, j] gives, (x, y) in [-1, 1]. *)
From Coq Require Import List Arith ZArith QArith Qabs Qround.
From Verif Require Import Spec.Shapes Spec.Tensors Spec.Resize Spec.MatMul.
Import ListNotations.
Local Open Scope Z_scope.

Inductive padding := Zeros | Border | Reflection.

(** The pixel coordinate, on an axis of [size] pixels, of the grid's [g] in [-1, 1]: with
    [align] the ends are the centres of the outermost pixels, otherwise their outer edges. *)
Definition pixel_coord (align : bool) (size : nat) (g : Q) : Q :=
  (if align then (g + 1) / 2 * (qn size - 1) else ((g + 1) * qn size - 1) / 2)%Q.
(** [u] is [x] reflected at the ends of the image until it lies inside. *)
Definition reflected (align : bool) (size : nat) (x u : Q) : Prop :=
  let lo := (if align then 0 else - (1 # 2))%Q in
  let hi := (if align then qn size - 1 else qn size - (1 # 2))%Q in
  (lo <= u <= hi)%Q /\ exists k : Z, (u - lo == x - lo + 2 * inject_Z k * (hi - lo) \/ u - lo == lo - x + 2 * inject_Z k * (hi - lo))%Q.
Definition inside (size : nat) (u : Q) : Prop := (0 <= u <= qn size - 1)%Q.
(** [u] is the point of the image nearest to [x]. *)
Definition clamped (size : nat) (x u : Q) : Prop :=
  inside size u /\ ((x < 0 /\ u == 0) \/ (qn size - 1 < x /\ u == qn size - 1) \/ u == x)%Q.

(** *** Nearest *)
(** [i] is the nearest integer, and no other is as near. *)
Definition nearest_to (x : Q) (i : Z) : Prop := (inject_Z i - (1 # 2) < x < inject_Z i + (1 # 2))%Q.
Definition border_pixel (size : nat) (i : Z) : nat := Z.to_nat (Z.max 0 (Z.min (Z.of_nat size - 1) i)).
(** The pixel read along one axis; none if it is outside the image and the padding is zeros.
    Nothing is said of coordinates half-way between two pixels. *)
Definition reads (pad : padding) (align : bool) (size : nat) (g : Q) (r : option nat) : Prop :=
  let x := pixel_coord align size g in
  match pad with
  | Zeros => exists i, nearest_to x i /\ ((0 <= i < Z.of_nat size /\ r = Some (Z.to_nat i)) \/ (~ 0 <= i < Z.of_nat size /\ r = None))
  | Border => exists i, nearest_to x i /\ r = Some (border_pixel size i)
  | Reflection => exists u i, reflected align size x u /\ nearest_to u i /\ r = Some (border_pixel size i)
  end.
(** The grid's coordinate [a] (0 is x, 1 is y) of a position, in fixed point of scale [alpha] *)
Definition grid_at (alpha : Z) (g : tensor Z) (b i j a : nat) : Q := (inject_Z (value_at g [b; i; j; a]) / inject_Z alpha)%Q.
(** The operands and the result of GridSample: n images of c channels of h x w pixels *)
Definition grid_shapes {T} (n c h w ho wo : nat) (x : tensor T) (g : tensor Z) : Prop :=
  well_formed x /\ dims x = [n; c; h; w] /\ well_formed g /\ dims g = [n; ho; wo; 2]%nat.
Definition sampled_nearest {T} (zero : T) (pad : padding) (align : bool) (alpha : Z) (n c h w ho wo : nat)
    (x : tensor T) (g : tensor Z) (y : tensor T) : Prop :=
  well_formed y /\ dims y = [n; c; ho; wo] /\
  forall b ch i j sy sx, (b < n)%nat -> (ch < c)%nat -> (i < ho)%nat -> (j < wo)%nat ->
    reads pad align h (grid_at alpha g b i j 1) sy -> reads pad align w (grid_at alpha g b i j 0) sx ->
    elem y [b; ch; i; j] = match sy, sx with Some r, Some q => elem x [b; ch; r; q] | _, _ => Some zero end.

(** *** Bilinear *)
(** The pixel at integer coordinates; zero outside the image *)
Definition pixel_at (x : tensor Z) (h w b ch : nat) (r q : Z) : Z :=
  if ((0 <=? r) && (r <? Z.of_nat h) && (0 <=? q) && (q <? Z.of_nat w))%bool then value_at x [b; ch; Z.to_nat r; Z.to_nat q] else 0.
(** The share of the pixel at [i] in the value at [u] *)
Definition share (u : Q) (i : Z) : Q := (if Qle_bool 1 (Qabs (u - inject_Z i)) then 0 else 1 - Qabs (u - inject_Z i))%Q.
(** The four pixels around (uy, ux), weighted by their shares in fixed point of scale [alpha] *)
Definition weighted (alpha : Z) (uy ux : Q) (px : Z -> Z -> Z) : Z :=
  let term r q := Qfloor (share uy r * share ux q * inject_Z alpha + (1 # 2))%Q * px r q in
  let r := Qfloor uy in let q := Qfloor ux in
  term r q + term r (q + 1) + term (r + 1) q + term (r + 1) (q + 1).
(** The point interpolated along one axis *)
Definition point (pad : padding) (align : bool) (size : nat) (g u : Q) : Prop :=
  let x := pixel_coord align size g in
  match pad with
  | Zeros => (u == x)%Q
  | Border => clamped size x u
  | Reflection => exists v, reflected align size x v /\ clamped size v u
  end.
(** The weighted sums, rounded to the scale *)
Definition sampled_bilinear (pad : padding) (align : bool) (k : nat) (n c h w ho wo : nat) (x : tensor Z) (g : tensor Z) (y : tensor Z) : Prop :=
  let alpha := 2 ^ Z.of_nat k in
  well_formed y /\ dims y = [n; c; ho; wo] /\
  forall b ch i j uy ux, (b < n)%nat -> (ch < c)%nat -> (i < ho)%nat -> (j < wo)%nat ->
    point pad align h (grid_at alpha g b i j 1) uy -> point pad align w (grid_at alpha g b i j 0) ux ->
    elem y [b; ch; i; j] = Some ((weighted alpha uy ux (pixel_at x h w b ch) + alpha / 2) / alpha).
(** All points of the grid lie inside the image. *)
Definition grid_inside (align : bool) (k : nat) (n h w ho wo : nat) (g : tensor Z) : Prop :=
  forall b i j, (b < n)%nat -> (i < ho)%nat -> (j < wo)%nat ->
    inside h (pixel_coord align h (grid_at (2 ^ Z.of_nat k) g b i j 1)) /\ inside w (pixel_coord align w (grid_at (2 ^ Z.of_nat k) g b i j 0)).
