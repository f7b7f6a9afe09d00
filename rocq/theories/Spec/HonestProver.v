(** The honest prover of circuits that use registered hints: the builtin hints
    of the circuit builder are computed as the code does, the registered hints
    (the floating-point computations of the layers) by a given function [G] of
    the hint's number, its inputs and the number of outputs. *)
From Coq Require Import ZArith List.
From Verif Require Import Model.Builder.

Definition honest_with (G : nat -> list Z -> nat -> option (list Z)) (h : hintk) (ins : list Z) (n : nat)
    : option (list Z) :=
  match h with HCustom k => G k ins n | _ => honest_hint h ins n end.
