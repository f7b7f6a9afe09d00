(** Layers that compare, select and combine elements.  [yields p m v]: an accepted proof of [m]
    has the output [v] whatever the prover does, and the honest prover succeeds with it;
    [rejected p m]: no proof is accepted (Spec/Selection). *)
From Coq Require Import ZArith List Bool Arith Znumtheory Lia.
From Verif Require Import Spec.Numbers Spec.Shapes Spec.Tensors Spec.HonestProver Spec.Selection
  Model.Builder Model.Gadgets Model.Shapes Model.DataMovement Model.Selection
  Proofs.RangeCheck Proofs.Selection Proofs.Selection2 Proofs.Selection5 Proofs.SelectionProps.
Import ListNotations.
Local Open Scope Z_scope.

Definition ten (d : list nat) (l : list Z) : tensor Z := {| dims := d; flat := l |}.
(** The honest prover's inverses exist. *)
Example inverses_are_there : exists inv, inverses bn254_r inv.
Proof. exact (inverses_exist bn254_r bn254_prime). Qed.

(** ** C108: Where takes the elements of x where the condition is not zero and those of y elsewhere. *)
Theorem C108_where_runtime_exact p (cond x y : tensor Z) B r : prime p -> well_formed cond -> well_formed x -> well_formed y ->
  bounded B cond -> B < p -> broadcast3 (dims cond) (dims x) (dims y) r ->
  exists out, dims out = r /\ well_formed out /\ chosen cond x y out /\
    yields p (where_runtime p (encoded p cond) (encoded p x) (encoded p y)) (encoded p out).
Proof. exact (fun Hp => where_runtime_ok p Hp cond x y B r). Qed.
Print Assumptions C108_where_runtime_exact.
Theorem C108_where_runtime_rejects p (cond x y : tensor Z) : (forall r, ~ broadcast3 (dims cond) (dims x) (dims y) r) ->
  rejected p (where_runtime p (encoded p cond) (encoded p x) (encoded p y)).
Proof. exact (where_runtime_rejected p cond x y). Qed.
Print Assumptions C108_where_runtime_rejects.
Theorem C108_where_constant_exact T (cond : tensor Z) (x y : tensor T) : well_formed cond -> well_formed x -> well_formed y ->
  ((exists out, where_constant cond x y = Some out) <-> exists r, broadcast3 (dims cond) (dims x) (dims y) r) /\
  forall out, where_constant cond x y = Some out ->
    well_formed out /\ broadcast3 (dims cond) (dims x) (dims y) (dims out) /\ chosen cond x y out.
Proof. exact (where_constant_holds T cond x y). Qed.
Print Assumptions C108_where_constant_exact.
Example where_example :
  where_constant (ten [2; 1]%nat [0; 7]) (ten [2]%nat [-1; -2]) (ten []%nat [5]) = Some (ten [2; 2]%nat [5; 5; -1; -2]) /\
  run (honest_div bn254_r (fun v => v) (fun _ _ _ => None)) (fun _ _ => true)
    (where_runtime bn254_r (encoded bn254_r (ten [2; 1]%nat [0; 1])) (encoded bn254_r (ten [2]%nat [-1; -2])) (encoded bn254_r (ten []%nat [5]))) =
    Some (encoded bn254_r (ten [2; 2]%nat [5; 5; -1; -2])) /\
  broadcast3 [2; 1]%nat [2]%nat [] [2; 2]%nat.
Proof.
  split; [vm_compute; reflexivity|]. split; [vm_compute; reflexivity|]. apply where_shape_ok. vm_compute. reflexivity.
Qed.

(** ** C109: Equal is 1 where the elements are equal and 0 elsewhere. *)
Theorem C109_equal_runtime_exact p (a b : tensor Z) A B r : prime p -> well_formed a -> well_formed b ->
  Forall (lt 0%nat) (dims a) -> Forall (lt 0%nat) (dims b) ->
  bounded A a -> bounded B b -> A + B < p -> broadcasts_to (dims a) (dims b) r ->
  exists out, dims out = r /\ well_formed out /\ pointwise2 (fun u v => if u =? v then 1 else 0) a b out /\
    yields p (equal_runtime p (encoded p a) (encoded p b)) (encoded p out).
Proof. exact (fun Hp => equal_runtime_holds p Hp a b A B r). Qed.
Print Assumptions C109_equal_runtime_exact.
Theorem C109_equal_runtime_rejects p (a b : tensor Z) : Forall (lt 0%nat) (dims a) -> Forall (lt 0%nat) (dims b) ->
  (forall r, ~ broadcasts_to (dims a) (dims b) r) -> rejected p (equal_runtime p (encoded p a) (encoded p b)).
Proof. exact (elementwise_rejected p _ a b). Qed.
Print Assumptions C109_equal_runtime_rejects.
Theorem C109_equal_constant_exact p (a b : tensor Z) r : well_formed a -> well_formed b -> broadcasts_to (dims a) (dims b) r ->
  exists out, dims out = r /\ well_formed out /\ pointwise2 (fun u v => if u =? v then 1 else 0) a b out /\
    yields p (equal_constant p a b) (encoded p out).
Proof. exact (equal_constant_yields p a b r). Qed.
Print Assumptions C109_equal_constant_exact.
Example equal_example : determine_broadcast_shape [2; 1]%nat [3]%nat = Some [2; 3]%nat /\
  bounded 4 (ten [2; 1]%nat [4; -1]) /\ bounded 4 (ten [3]%nat [-1; 0; 4]) /\
  run (honest_div bn254_r (fun v => v) (fun _ _ _ => None)) (fun _ _ => true)
    (equal_constant bn254_r (ten [2; 1]%nat [4; -1]) (ten [3]%nat [-1; 0; 4])) = Some (ten [2; 3]%nat [0; 0; 1; 1; 0; 0]).
Proof. split; [reflexivity|]. split; [repeat constructor; cbn; lia|]. split; [repeat constructor; cbn; lia|]. vm_compute. reflexivity. Qed.

(** ** C110: And and Not on booleans; Not refuses anything else. *)
Theorem C110_and_exact p (a b : tensor Z) r : well_formed a -> well_formed b ->
  Forall (lt 0%nat) (dims a) -> Forall (lt 0%nat) (dims b) -> boolean a -> boolean b -> broadcasts_to (dims a) (dims b) r ->
  exists out, dims out = r /\ well_formed out /\ boolean out /\ pointwise2 (fun u v => if (u =? 1) && (v =? 1) then 1 else 0) a b out /\
    yields p (and_layer p (encoded p a) (encoded p b)) (encoded p out).
Proof. exact (and_holds p a b r). Qed.
Print Assumptions C110_and_exact.
Theorem C110_not_exact p (x : tensor Z) : prime p -> well_formed x -> boolean x ->
  exists out, well_formed out /\ pointwise (fun v => 1 - v) x out /\ yields p (not_layer p (encoded p x)) (encoded p out).
Proof. exact (fun Hp => not_yields p Hp x). Qed.
Print Assumptions C110_not_exact.
Theorem C110_not_rejects p (x : tensor Z) B : prime p -> bounded B x -> B + 1 < p -> ~ boolean x -> rejected p (not_layer p (encoded p x)).
Proof. exact (fun Hp => not_rejected p Hp x B). Qed.
Print Assumptions C110_not_rejects.
Example and_not_example :
  run (honest_div bn254_r (fun v => v) (fun _ _ _ => None)) (fun _ _ => true)
    (and_layer bn254_r (ten [2; 1]%nat [0; 1]) (ten [2]%nat [1; 0])) = Some (ten [2; 2]%nat [0; 0; 1; 0]) /\
  run (honest_div bn254_r (fun v => v) (fun _ _ _ => None)) (fun _ _ => true) (not_layer bn254_r (ten [2]%nat [1; 0])) = Some (ten [2]%nat [0; 1]) /\
  ~ boolean (ten [1]%nat [2]).
Proof.
  split; [vm_compute; reflexivity|]. split; [vm_compute; reflexivity|]. intros H. inversion_clear H. lia.
Qed.

(** ** C111: Cast. *)
(** False: a cast to INT64 gives the integer part of the value at no scale [s] (2^kappa is the
    scale of the input). *)
Theorem C111_cast_to_integer_refuted kappa : (0 < kappa)%nat -> 2 * 2 ^ Z.of_nat kappa <= bn254_r ->
  ~ exists s, forall v T o, 0 <= v < 2 * 2 ^ Z.of_nat kappa ->
    accepts bn254_r T (cast_layer bn254_r 7 {| dims := [1%nat]; flat := [enc bn254_r v] |}) o ->
    o = {| dims := [1%nat]; flat := [enc bn254_r (s * (v / 2 ^ Z.of_nat kappa))] |}.
Proof. exact (cast_int_fails kappa). Qed.
Print Assumptions C111_cast_to_integer_refuted.
(** A cast to BOOL (9) is exact; any other supported type leaves the value alone; other types
    are refused. *)
Theorem C111_cast_to_bool_partial p (x : tensor Z) B : prime p -> well_formed x -> bounded B x -> B < p ->
  exists out, well_formed out /\ pointwise (fun v => if v =? 0 then 0 else 1) x out /\ yields p (cast_layer p 9 (encoded p x)) (encoded p out).
Proof. exact (fun Hp => cast_bool_yields p Hp x B). Qed.
Print Assumptions C111_cast_to_bool_partial.
Theorem C111_cast_other_partial p to (x : tensor Z) : to <> 9 -> In to [1; 2; 3; 4; 5; 6; 7; 10; 11; 12; 13; 16] -> yields p (cast_layer p to x) x.
Proof. exact (cast_other_holds p to x). Qed.
Print Assumptions C111_cast_other_partial.
Theorem C111_cast_rejects p to (x : tensor Z) : ~ In to [1; 2; 3; 4; 5; 6; 7; 9; 10; 11; 12; 13; 16] -> rejected p (cast_layer p to x).
Proof. exact (cast_unsupported p to x). Qed.
Print Assumptions C111_cast_rejects.
Example cast_example : (0 < 18)%nat /\ 2 * 2 ^ Z.of_nat 18 <= bn254_r /\ bounded 3 (ten [2]%nat [-3; 0]) /\ ~ In 8 [1; 2; 3; 4; 5; 6; 7; 9; 10; 11; 12; 13; 16].
Proof.
  split; [lia|]. split; [vm_compute; discriminate|]. split; [repeat constructor; cbn; lia|]. cbn. lia.
Qed.

(** ** C112: GatherElements with computed indices. *)
(** False: with 36-bit values and chunk 12, a negative element cannot be gathered. *)
Theorem C112_gather_elements_complete_refuted F : ~ (forall nb raw (idx x : tensor Z), width_ok 12 nb ->
  well_formed idx -> well_formed x -> valid_axis (Z.of_nat (length (dims x))) raw ->
  let axis := axis_position (Z.of_nat (length (dims x))) raw in
  gather_args axis idx x -> Forall (valid_index (axis_dim axis x)) (flat idx) -> bounded (2 ^ (Z.of_nat nb - 1) - 1) x ->
  exists o, accepts bn254_r (table_rows 12 F) (gather_elements_dynamic bn254_r 12 nb raw (encoded bn254_r idx) (encoded bn254_r x)) o).
Proof. exact (ge_complete_fails F). Qed.
Print Assumptions C112_gather_elements_complete_refuted.
(** Accepted exactly when the indices are valid and the gathered elements pass the range check;
    the output is the gathered tensor. *)
Theorem C112_gather_elements_exact_partial p c F nb raw (idx x : tensor Z) o :
  prime p -> (0 < c)%nat -> width_ok c nb -> 2 ^ Z.of_nat (rounded c nb) <= p ->
  well_formed idx -> well_formed x -> valid_axis (Z.of_nat (length (dims x))) raw ->
  let axis := axis_position (Z.of_nat (length (dims x))) raw in
  gather_args axis idx x ->
  Forall (fun z => Z.abs z + Z.of_nat (axis_dim axis x) < p) (flat idx) ->
  Forall (fun z => 2 ^ Z.of_nat nb - p <= z < p + 2 ^ Z.of_nat nb - 2 ^ Z.of_nat (rounded c nb)) (flat x) ->
  accepts p (table_rows c F) (gather_elements_dynamic p c nb raw (encoded p idx) (encoded p x)) o <->
  Forall (valid_index (axis_dim axis x)) (flat idx) /\
  exists out, well_formed out /\ elements_gathered axis idx x out /\
    Forall (fun v => 2 ^ Z.of_nat nb - 2 ^ Z.of_nat (rounded c nb) <= v < 2 ^ Z.of_nat nb) (flat out) /\ o = encoded p out.
Proof. exact (ge_exact_holds p c F nb raw idx x o). Qed.
Print Assumptions C112_gather_elements_exact_partial.
(** The honest prover succeeds when the gathered elements are not negative and fit. *)
Theorem C112_gather_elements_honest_partial p c F nb raw (idx x out : tensor Z) inv G :
  prime p -> (0 < c)%nat -> width_ok c nb -> 2 ^ Z.of_nat (rounded c nb) <= p ->
  well_formed idx -> well_formed x -> valid_axis (Z.of_nat (length (dims x))) raw ->
  let axis := axis_position (Z.of_nat (length (dims x))) raw in
  gather_args axis idx x -> 2 * Z.of_nat (axis_dim axis x) < p -> inverses p inv ->
  (forall ins, G 40%nat ins 1%nat = gather_elements_hint p ins 1) ->
  Forall (valid_index (axis_dim axis x)) (flat idx) -> well_formed out -> elements_gathered axis idx x out ->
  Forall (fun v => 0 <= v < 2 ^ Z.of_nat nb) (flat out) ->
  run (honest_div p inv G) (table_rowsb c F) (gather_elements_dynamic p c nb raw (encoded p idx) (encoded p x)) = Some (encoded p out).
Proof. exact (ge_run_holds p c F nb raw idx x out inv G). Qed.
Print Assumptions C112_gather_elements_honest_partial.
Example gather_elements_example : prime bn254_r /\ width_ok 12 64 /\ 2 ^ Z.of_nat (rounded 12 64) <= bn254_r /\
  gather_args 1%nat (ten [2; 1]%nat [-1; 0]) (ten [2; 2]%nat [1; 2; 3; 4]) /\
  Forall (valid_index 2%nat) [-1; 0] /\ elements_gathered 1%nat (ten [2; 1]%nat [-1; 0]) (ten [2; 2]%nat [1; 2; 3; 4]) (ten [2; 1]%nat [2; 3]).
Proof.
  split; [exact bn254_prime|]. split; [split; lia|]. split; [vm_compute; discriminate|]. split.
  { split; [reflexivity|]. split; [discriminate|]. intros [|[|k]] Hk N; cbn in *; lia. }
  split; [repeat constructor; cbn; lia|]. split; [reflexivity|].
  intros [|[|[|a]] [|[|b] [|? ?]]] z E; vm_compute in E; try discriminate; injection E as <-; reflexivity.
Qed.

(** ** C114: Resize in linear mode, one output element: the weighted mean of the corner values
    [xs] with the weights [ws] at scale 2^kappa, rounded to the nearest, halves up. *)
(** False at the default configuration: an output of 63 units is accepted for a corner 0 ... *)
Theorem C114_resize_linear_sound_refuted F :
  accepts bn254_r (table_rows 12 F) (resize_linear_element bn254_r 12 18 64 [enc bn254_r 0] [2 ^ 18]) 63.
Proof. exact (linear_sound_fails F). Qed.
Print Assumptions C114_resize_linear_sound_refuted.
(** ... and the honest prover fails on the value -100.0. *)
Theorem C114_resize_linear_complete_refuted F :
  run (honest_div bn254_r (fun v => v) (fun k ins n => if (k =? 41)%nat then resize_hint bn254_r ins n else None)) (table_rowsb 12 F)
  (resize_linear_element bn254_r 12 18 64 [enc bn254_r (-100 * 2 ^ 18)] [2 ^ 18]) = None.
Proof. exact (linear_negative_fails F). Qed.
Print Assumptions C114_resize_linear_complete_refuted.
(** Exactly these outputs are accepted. *)
Theorem C114_resize_linear_exact_partial p c F kappa nb xs ws o :
  prime p -> (0 < c)%nat -> width_ok c kappa -> width_ok c nb -> length ws = length xs ->
  Z.abs (dot xs ws) + 2 ^ Z.of_nat (rounded c nb) * 2 ^ Z.of_nat kappa + 2 ^ Z.of_nat kappa + 2 ^ Z.of_nat (rounded c kappa) < p ->
  accepts p (table_rows c F) (resize_linear_element p c kappa nb (map (enc p) xs) ws) o <->
  exists y, o = enc p y /\ 2 ^ Z.of_nat nb - 2 ^ Z.of_nat (rounded c nb) <= y < 2 ^ Z.of_nat nb /\
    let m := (dot xs ws + 2 ^ Z.of_nat kappa / 2) / 2 ^ Z.of_nat kappa in
    m <= y /\ (y - m) * 2 ^ Z.of_nat kappa <= (dot xs ws + 2 ^ Z.of_nat kappa / 2) mod 2 ^ Z.of_nat kappa + 2 ^ Z.of_nat (rounded c kappa) - 2 ^ Z.of_nat kappa.
Proof. exact (linear_exact_holds p c F kappa nb xs ws o). Qed.
Print Assumptions C114_resize_linear_exact_partial.
(** An accepted output is never below the mean, and above it by less than the slack of the
    range check; equal to it if the scale's exponent is a multiple of the chunk. *)
Theorem C114_resize_linear_bound_partial p c F kappa nb xs ws o :
  prime p -> (0 < c)%nat -> width_ok c kappa -> width_ok c nb -> length ws = length xs ->
  Z.abs (dot xs ws) + 2 ^ Z.of_nat (rounded c nb) * 2 ^ Z.of_nat kappa + 2 ^ Z.of_nat kappa + 2 ^ Z.of_nat (rounded c kappa) < p ->
  accepts p (table_rows c F) (resize_linear_element p c kappa nb (map (enc p) xs) ws) o ->
  exists y, o = enc p y /\ let m := (dot xs ws + 2 ^ Z.of_nat kappa / 2) / 2 ^ Z.of_nat kappa in
    m <= y <= m + 2 ^ (Z.of_nat (rounded c kappa) - Z.of_nat kappa) - 1.
Proof. exact (linear_bound_holds p c F kappa nb xs ws o). Qed.
Print Assumptions C114_resize_linear_bound_partial.
Theorem C114_resize_linear_whole_partial p c F kappa nb xs ws o :
  prime p -> (0 < c)%nat -> width_ok c kappa -> width_ok c nb -> length ws = length xs ->
  Z.abs (dot xs ws) + 2 ^ Z.of_nat (rounded c nb) * 2 ^ Z.of_nat kappa + 2 ^ Z.of_nat kappa + 2 ^ Z.of_nat (rounded c kappa) < p ->
  (kappa mod c = 0)%nat ->
  accepts p (table_rows c F) (resize_linear_element p c kappa nb (map (enc p) xs) ws) o ->
  o = enc p ((dot xs ws + 2 ^ Z.of_nat kappa / 2) / 2 ^ Z.of_nat kappa).
Proof. exact (linear_whole_holds p c F kappa nb xs ws o). Qed.
Print Assumptions C114_resize_linear_whole_partial.
(** The honest prover outputs the mean when the sum is not negative. *)
Theorem C114_resize_linear_honest_partial p c F kappa nb xs ws inv G :
  prime p -> (0 < c)%nat -> width_ok c kappa -> width_ok c nb -> length ws = length xs ->
  Z.abs (dot xs ws) + 2 ^ Z.of_nat (rounded c nb) * 2 ^ Z.of_nat kappa + 2 ^ Z.of_nat kappa + 2 ^ Z.of_nat (rounded c kappa) < p ->
  xs <> [] -> Forall (fun x => 2 * Z.abs x < p) xs -> Forall (fun w => 0 <= w < p) ws ->
  (forall ins, G 41%nat ins 1%nat = resize_hint p ins 1) ->
  let m := (dot xs ws + 2 ^ Z.of_nat kappa / 2) / 2 ^ Z.of_nat kappa in
  0 <= dot xs ws -> m < 2 ^ Z.of_nat nb -> m < 2 ^ 63 ->
  run (honest_div p inv G) (table_rowsb c F) (resize_linear_element p c kappa nb (map (enc p) xs) ws) = Some (enc p m).
Proof. exact (linear_run_holds p c F kappa nb xs ws inv G). Qed.
Print Assumptions C114_resize_linear_honest_partial.
Example resize_linear_example : width_ok 12 18 /\ width_ok 12 24 /\ width_ok 12 64 /\
  let xs := [5; 8] in let ws := [2 ^ 17; 2 ^ 17] in
  Z.abs (dot xs ws) + 2 ^ Z.of_nat (rounded 12 64) * 2 ^ Z.of_nat 18 + 2 ^ Z.of_nat 18 + 2 ^ Z.of_nat (rounded 12 18) < bn254_r /\
  (dot xs ws + 2 ^ Z.of_nat 18 / 2) / 2 ^ Z.of_nat 18 = 7.
Proof. split; [split; lia|]. split; [split; lia|]. split; [split; lia|]. split; vm_compute; reflexivity. Qed.

(** ** C116: Add and Sub. *)
Theorem C116_add_exact p (a b : tensor Z) r : well_formed a -> well_formed b ->
  Forall (lt 0%nat) (dims a) -> Forall (lt 0%nat) (dims b) -> broadcasts_to (dims a) (dims b) r ->
  exists out, dims out = r /\ well_formed out /\ pointwise2 Z.add a b out /\ yields p (add_layer p (encoded p a) (encoded p b)) (encoded p out).
Proof. exact (arith_holds p add Z.add a b r (enc_add p)). Qed.
Print Assumptions C116_add_exact.
Theorem C116_sub_exact p (a b : tensor Z) r : well_formed a -> well_formed b ->
  Forall (lt 0%nat) (dims a) -> Forall (lt 0%nat) (dims b) -> broadcasts_to (dims a) (dims b) r ->
  exists out, dims out = r /\ well_formed out /\ pointwise2 Z.sub a b out /\ yields p (sub_layer p (encoded p a) (encoded p b)) (encoded p out).
Proof. exact (arith_holds p sub Z.sub a b r (enc_sub p)). Qed.
Print Assumptions C116_sub_exact.
Theorem C116_add_sub_rejects p (a b : tensor Z) : Forall (lt 0%nat) (dims a) -> Forall (lt 0%nat) (dims b) ->
  (forall r, ~ broadcasts_to (dims a) (dims b) r) ->
  rejected p (add_layer p (encoded p a) (encoded p b)) /\ rejected p (sub_layer p (encoded p a) (encoded p b)).
Proof. exact (fun Pa Pb N => conj (elementwise_rejected p _ a b Pa Pb N) (elementwise_rejected p _ a b Pa Pb N)). Qed.
Print Assumptions C116_add_sub_rejects.
Example sub_example :
  run (honest_div bn254_r (fun v => v) (fun _ _ _ => None)) (fun _ _ => true)
    (sub_layer bn254_r (ten [2; 1]%nat [4; 1]) (ten [2]%nat [1; 2])) = Some (encoded bn254_r (ten [2; 2]%nat [3; 2; 0; -1])).
Proof. vm_compute. reflexivity. Qed.
