(** What a batch of witnesses is: every witness is the list of its private inputs and
    the list of its public inputs, all of the same sizes. *)
From Coq Require Import List Arith.
Import ListNotations.

Definition sized {F} (a b : nat) (w : list F * list F) : Prop := length (fst w) = a /\ length (snd w) = b.

(** The values of the batch one witness after the other. *)
Definition flat_values {F} (ws : list (list F * list F)) : list F := flat_map (fun w => fst w ++ snd w) ws.

(** [lanes] are [pack] witnesses side by side: lane [j] of element [i] is element [i]
    of witness [j]. *)
Definition interleaved {F} (pack : nat) (vectors : list (list F)) (lane : nat -> list F) : Prop :=
  Forall (fun v => length v = pack) vectors /\
  forall j, j < pack -> length (lane j) = length vectors /\
    forall i v, nth_error vectors i = Some v -> nth_error v j = nth_error (lane j) i.
