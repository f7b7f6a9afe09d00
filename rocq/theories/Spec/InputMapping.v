(** What input mappings are *)
From Coq Require Import List Arith NArith.
From Verif Require Import Model.InputMapping.
Import ListNotations.
Local Open Scope list_scope.

(** Every entry is a position of the target, or the mark of a dropped input *)
Definition in_bounds (n : N) (ms : list N) : Prop := forall m, In m ms -> m = EMPTY \/ (m < n)%N.
(** No two inputs go to the same position *)
Definition injective (m : input_mapping) : Prop := forall i j x, nth_error (mapping m) i = Some x -> nth_error (mapping m) j = Some x -> x <> EMPTY -> i = j.
(** Every position receives an input *)
Definition surjective (m : input_mapping) : Prop := forall q, (q < next_size m)%N -> In q (mapping m) /\ q <> EMPTY.
Definition mapping_ok (m : input_mapping) : Prop := in_bounds (next_size m) (mapping m) /\ injective m /\ surjective m.
