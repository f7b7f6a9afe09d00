(** Input mappings of the compiler (C56). *)
From Coq Require Import List Arith NArith.
From Verif Require Import Model.InputMapping Spec.InputMapping.
From Verif.Proofs Require InputMapping.
Import ListNotations.
Local Open Scope list_scope.

(** C56.  Where a mapping sends an input: input [i] arrives at position [mapping i], and
    positions that receive nothing hold the default. *)
Theorem C56_meaning {T} (d : T) m xs r : injective m -> map_inputs d m xs = Some r -> length r = N.to_nat (next_size m) /\
  (forall i q x, nth_error (mapping m) i = Some q -> q <> EMPTY -> nth_error xs i = Some x -> nth_error r (N.to_nat q) = Some x) /\
  (forall q, (q < next_size m)%N -> q = EMPTY \/ ~ In q (mapping m) -> nth_error r (N.to_nat q) = Some d).
Proof. exact (InputMapping.map_means d m xs r). Qed.
Print Assumptions C56_meaning.
(** Applying the composition is applying one mapping after the other. *)
Theorem C56_compose {T} (d : T) a b xs mid out : injective b -> map_inputs d a xs = Some mid -> map_inputs d b mid = Some out ->
  exists c, compose a b = Some c /\ map_inputs d c xs = Some out.
Proof. exact (InputMapping.compose_maps d a b xs mid out). Qed.
Print Assumptions C56_compose.
(** The in-place composition is the composition. *)
Theorem C56_in_place a b : compose_in_place a b = compose a b.
Proof. exact (InputMapping.in_place_same a b). Qed.
Print Assumptions C56_in_place.
(** The check accepts exactly the good mappings; good mappings of matching sizes compose
    without a fault, to good mappings. *)
Theorem C56_validate m : validate m = true <-> mapping_ok m.
Proof. exact (InputMapping.validate_iff m). Qed.
Print Assumptions C56_validate.
Theorem C56_compose_total a b : in_bounds (next_size a) (mapping a) -> N.to_nat (next_size a) = length (mapping b) -> exists c, compose a b = Some c.
Proof. exact (InputMapping.compose_total a b). Qed.
Print Assumptions C56_compose_total.
Theorem C56_compose_valid a b c : validate a = true -> validate b = true -> N.to_nat (next_size a) = length (mapping b) -> compose a b = Some c -> validate c = true.
Proof. exact (InputMapping.compose_valid a b c). Qed.
Print Assumptions C56_compose_valid.
(** The identity mapping is good and changes nothing. *)
Theorem C56_identity {T} (d : T) n xs : (n <= EMPTY)%N -> length xs = N.to_nat n ->
  validate (new_identity n) = true /\ map_inputs d (new_identity n) xs = Some xs.
Proof. exact (fun H L => conj (InputMapping.identity_valid n H) (InputMapping.identity_keeps d n xs H L)). Qed.
Print Assumptions C56_identity.

Definition first_mapping : input_mapping := {| next_size := 3; mapping := [2; EMPTY; 0; 1]%N |}.
Definition second_mapping : input_mapping := {| next_size := 2; mapping := [EMPTY; 1; 0]%N |}.
Example C56_case : validate first_mapping = true /\ validate second_mapping = true /\
  map_inputs 0 first_mapping [10; 11; 12; 13] = Some [12; 13; 10] /\ map_inputs 0 second_mapping [12; 13; 10] = Some [10; 13] /\
  compose first_mapping second_mapping = Some {| next_size := 2; mapping := [0; EMPTY; EMPTY; 1]%N |}.
Proof. vm_compute. auto. Qed.
(** Composition needs the second mapping to send no two inputs to one place. *)
Definition swap_mapping : input_mapping := {| next_size := 2; mapping := [1; 0]%N |}.
Definition merge_mapping : input_mapping := {| next_size := 1; mapping := [0; 0]%N |}.
Example C56_merge : map_inputs 0 swap_mapping [7; 8] = Some [8; 7] /\ map_inputs 0 merge_mapping [8; 7] = Some [7] /\
  exists c, compose swap_mapping merge_mapping = Some c /\ map_inputs 0 c [7; 8] = Some [8].
Proof. vm_compute. repeat split. eexists. split; reflexivity. Qed.
