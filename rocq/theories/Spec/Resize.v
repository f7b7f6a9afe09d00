(** Resize, as ONNX defines it. *)
From Coq Require Import List Arith ZArith QArith Qround.
From Verif Require Import Spec.Shapes Spec.Tensors.
Import ListNotations.

Inductive coord_mode := HalfPixel | Asymmetric | AlignCorners | PytorchHalfPixel | TfHalfPixelForNn.
Inductive nearest_mode := RoundPreferFloor | RoundPreferCeil | Floor | Ceil.

Definition qn (n : nat) : Q := inject_Z (Z.of_nat n).
(** The coordinate in the input, for output position [o] of an axis of size [i] resized to
    [n] by the scale [s]. *)
Definition source_coord (m : coord_mode) (s : Q) (i n o : nat) : Q :=
  match m with
  | HalfPixel => (qn o + (1 # 2)) / s - (1 # 2)
  | Asymmetric => qn o / s
  | AlignCorners => if n =? 1 then 0 else qn o * (qn i - 1) / (qn n - 1)
  | PytorchHalfPixel => if 1 <? n then (qn o + (1 # 2)) / s - (1 # 2) else 0
  | TfHalfPixelForNn => (qn o + (1 # 2)) / s
  end.
(** The nearest integer; the modes differ on the halves, or round always the same way. *)
Definition nearest (m : nearest_mode) (x : Q) : Z :=
  match m with
  | RoundPreferFloor => Qceiling (x - (1 # 2))
  | RoundPreferCeil => Qfloor (x + (1 # 2))
  | Floor => Qfloor x
  | Ceil => Qceiling x
  end.
(** The position read, at the border when the coordinate is outside the input. *)
Definition source (cm : coord_mode) (nm : nearest_mode) (s : Q) (i n o : nat) : nat :=
  Z.to_nat (Z.max 0 (Z.min (Z.of_nat i - 1) (nearest nm (source_coord cm s i n o)))).

(** [sc] are the scales of the axes. *)
Definition resized {T} (cm : coord_mode) (nm : nearest_mode) (sc : list Q) (x y : tensor T) : Prop :=
  length sc = length (dims x) /\ length (dims y) = length (dims x) /\
  forall c, in_range c (dims y) -> elem y c =
    elem x (map (fun k => source cm nm (nth k sc 1) (nth k (dims x) 0%nat) (nth k (dims y) 0%nat) (nth k c 0%nat)) (seq 0 (length (dims x)))).
(** The scales that sizes stand for. *)
Definition scales_of (s n : list nat) : list Q := map2 (fun i o => qn o / qn i) s n.
(** The output dimensions that scales stand for. *)
Definition scaled_dims (s : list nat) (sc : list Q) : list nat := map2 (fun i q => Z.to_nat (Qfloor (qn i * q))) s sc.
(** The scales make the sizes whole numbers. *)
Definition whole_sizes (s : list nat) (sc : list Q) : Prop := Forall2 (fun i q => (inject_Z (Qfloor (qn i * q)) == qn i * q)%Q) s sc.
