(** Layered circuits: checked circuits do not fault, vectors, flattening (C52, C54, C55, C68). *)
From Coq Require Import List Bool Arith NArith ZArith Permutation.
From Verif Require Import Base.Array Base.Field Base.SmallField Model.Layered Spec.Layered.
From Verif.Proofs Require Layered Lanes Flatten LayeredMain.
Import ListNotations.
Local Open Scope list_scope.

(** C55.  A checked circuit evaluates without an index out of range, for every input of
    the right length, provided that its public inputs exist and that it computes at least
    the announced number of outputs. *)
Theorem C55_no_index_faults_partial (K : field) rnd custom :
  (forall t ins, exists outs, custom t ins = Some outs /\ length outs <= 1) ->
  forall (c : circuit K) inputs pub n m, validate K c = Some true -> (forall s, In s (c_segments c) -> publics_in K (length pub) s) ->
  input_size K c = Some n -> length inputs = n -> last_size K c = Some m -> c_zeroes c <= c_actual_outputs c <= m ->
  exists outs ok, eval_with_public_inputs K rnd custom c inputs pub = Some (outs, ok) /\ length outs = c_actual_outputs c - c_zeroes c.
Proof. exact (Layered.eval_total K rnd custom). Qed.
Print Assumptions C55_no_index_faults_partial.
Theorem C55_constraint_values_partial (K : field) rnd custom :
  (forall t ins, exists outs, custom t ins = Some outs /\ length outs <= 1) ->
  forall (c : circuit K) inputs pub n m, validate K c = Some true -> (forall s, In s (c_segments c) -> publics_in K (length pub) s) ->
  input_size K c = Some n -> length inputs = n -> last_size K c = Some m -> c_zeroes c <= m ->
  exists outs, eval_constraint_values K rnd custom c inputs pub = Some outs /\ length outs = c_zeroes c.
Proof. exact (Layered.values_total K rnd custom). Qed.
Print Assumptions C55_constraint_values_partial.
(** A checked circuit has an input size and an output size. *)
Theorem C55_sizes (K : field) (c : circuit K) : validate K c = Some true ->
  (exists n, input_size K c = Some n) /\ exists m, last_size K c = Some m.
Proof. exact (fun H => conj (Layered.input_size_ok K c H) (Layered.last_size_ok K c H)). Qed.
Print Assumptions C55_sizes.
(** The check alone is not enough: it does not look at the numbers of the public inputs. *)
Theorem C55_no_index_faults_refuted : exists (K : field) (c : circuit K) custom inputs pub rnd n, validate K c = Some true /\ input_size K c = Some n /\
  length inputs = n /\ length pub = c_publics c /\ (forall t ins, exists outs, custom t ins = Some outs /\ length outs <= 1) /\
  c_zeroes c <= c_actual_outputs c /\ eval_with_public_inputs K rnd custom c inputs pub = None.
Proof. exact LayeredMain.validate_refuted. Qed.
Print Assumptions C55_no_index_faults_refuted.

(** C52.  A vector evaluation is an ordinary evaluation in every lane: the outputs, and
    the flag telling whether the constraints hold. *)
Theorem C52_lanes (K : field) pack custom rnds (c : circuit K) inputs pub outs flags : 0 < pack ->
  (forall t x y ox oy, length x = length y -> custom t x = Some ox -> custom t y = Some oy -> length ox = length oy) ->
  vec K pack rnds -> Forall (vec K pack) inputs -> Forall (vec K pack) pub ->
  eval_simd K custom pack rnds c inputs pub = Some (outs, flags) ->
  length flags = pack /\ Forall (vec K pack) outs /\
  forall j, j < pack -> eval_with_public_inputs K (lane K j rnds) custom c (map (lane K j) inputs) (map (lane K j) pub) =
    Some (map (lane K j) outs, nth j flags false).
Proof. exact (LayeredMain.lanes_some K pack custom rnds c inputs pub outs flags). Qed.
Print Assumptions C52_lanes.
(** and it fails only if some lane fails on its own. *)
Theorem C52_faults (K : field) pack custom rnds (c : circuit K) inputs pub : 0 < pack ->
  (forall t x y ox oy, length x = length y -> custom t x = Some ox -> custom t y = Some oy -> length ox = length oy) ->
  vec K pack rnds -> Forall (vec K pack) inputs -> Forall (vec K pack) pub ->
  eval_simd K custom pack rnds c inputs pub = None ->
  exists j, j < pack /\ eval_with_public_inputs K (lane K j rnds) custom c (map (lane K j) inputs) (map (lane K j) pub) = None.
Proof. exact (LayeredMain.lanes_none K pack custom rnds c inputs pub). Qed.
Print Assumptions C52_faults.

(** C54.  Flattening a checked circuit whose segments have one input and whose
    coefficients are constants (public inputs in constant gates) succeeds, and the
    flattened circuit computes the same outputs and the same constraint values. *)
Theorem C54_same_function_partial (K : field) rnd custom order (c : circuit K) pub n : any_order order ->
  validate K c = Some true -> (forall s, In s (c_segments c) -> plain K custom (length pub) s) -> input_size K c = Some n ->
  exists pc, export_to_expander_flatten K order c = Some pc /\ pc_zeros K pc = c_zeroes c /\
  forall inputs, length inputs = n -> forall outs sat,
    eval_with_public_inputs K rnd custom c inputs pub = Some (outs, sat) ->
    exists final, evaluate K pc (pad K inputs) pub = Some final /\
      slice final (c_zeroes c) (c_actual_outputs c) = Some outs /\
      sat = forallb (fun x => feqb x f0) (firstn (pc_zeros K pc) final) /\
      eval_constraint_values K rnd custom c inputs pub = Some (firstn (pc_zeros K pc) final).
Proof. exact (LayeredMain.flatten_observed K rnd custom order c pub n). Qed.
Print Assumptions C54_same_function_partial.
(** A public input as the coefficient of an addition is lost by flattening. *)
Theorem C54_same_function_refuted : exists (K : field) (c : circuit K) custom order inputs pub rnd n outs pc final, any_order order /\
  validate K c = Some true /\ input_size K c = Some n /\ length inputs = n /\ length pub = c_publics c /\
  (forall s, In s (c_segments c) -> single K s /\ publics_in K (length pub) s) /\
  eval_with_public_inputs K rnd custom c inputs pub = Some (outs, true) /\
  export_to_expander_flatten K order c = Some pc /\ evaluate K pc (pad K inputs) pub = Some final /\
  slice final (c_zeroes c) (c_actual_outputs c) <> Some outs.
Proof. exact LayeredMain.flatten_refuted. Qed.
Print Assumptions C54_same_function_refuted.

(** C68.  Two runs of flattening on the same circuit, iterating over their maps in
    different orders, give the same gates with the same coefficients; *)
Theorem C68_same_gates_partial (K : field) o1 o2 : any_order o1 -> any_order o2 ->
  forall (c : circuit K), validate K c = Some true -> (forall s, In s (c_segments c) -> single K s) ->
  exists a b, export_to_expander_flatten K o1 c = Some a /\ export_to_expander_flatten K o2 c = Some b /\ same_circuit K a b.
Proof. exact (Flatten.flatten_same K o1 o2). Qed.
Print Assumptions C68_same_gates_partial.
(** the same circuit if no segment has children; *)
Theorem C68_same_circuit_partial (K : field) o1 o2 : any_order o1 -> any_order o2 ->
  forall (c : circuit K), validate K c = Some true -> (forall s, In s (c_segments c) -> s_children s = []) ->
  export_to_expander_flatten K o1 c = export_to_expander_flatten K o2 c.
Proof. exact (Flatten.flatten_equal K o1 o2). Qed.
Print Assumptions C68_same_circuit_partial.
(** but in general not the same function, once the same random values are filled in: the
    gates receive them in the order of the map. *)
Theorem C68_same_circuit_refuted : exists (K : field) (c : circuit K) o1 o2 pc1 pc2 drawn inputs out1 out2,
  any_order o1 /\ any_order o2 /\ validate K c = Some true /\ (forall s, In s (c_segments c) -> single K s) /\
  export_to_expander_flatten K o1 c = Some pc1 /\ export_to_expander_flatten K o2 c = Some pc2 /\
  evaluate K (fill_rnd_coefs K pc1 drawn) inputs [] = Some out1 /\ evaluate K (fill_rnd_coefs K pc2 drawn) inputs [] = Some out2 /\ out1 <> out2.
Proof. exact LayeredMain.flatten_order_refuted. Qed.
Print Assumptions C68_same_circuit_refuted.

(** A circuit with nested segments, used twice and at two places. *)
Import LayeredMain.
Example C55_case : validate F7 nested = Some true /\ (forall s, In s (c_segments nested) -> publics_in F7 1 s) /\
  input_size F7 nested = Some 4 /\ last_size F7 nested = Some 4.
Proof.
  split; [vm_compute; reflexivity|]. split; [|split; reflexivity].
  intros s [ <- |[ <- |[]]]; repeat split; cbn; intros g G; intuition (subst; cbn; auto).
Qed.
Example C54_case : (forall s, In s (c_segments nested) -> plain F7 no_custom 1 s) /\
  option_map fst (eval_with_public_inputs F7 (n7 0) no_custom nested (l7 [1; 2; 3; 4]%Z) (l7 [5]%Z)) = Some (l7 [2; 2]%Z) /\
  obind (export_to_expander_flatten F7 other_order nested) (fun pc => evaluate F7 pc (l7 [1; 2; 3; 4]%Z) (l7 [5]%Z)) = Some (l7 [6; 2; 2; 4]%Z).
Proof.
  split; [|split; apply ol7_eq; vm_compute; reflexivity].
  intros s [ <- |[ <- |[]]]; (split; [reflexivity|]); (split; [|split; [|split]]); cbn; intros g G;
    try (destruct G as [ <- |[]]; eexists; reflexivity); try (destruct G; fail).
  destruct G as [ <- |[]]. right. exists 0. auto.
Qed.
Example C52_case : option_map (fun r => map (map (Field.fval 7)) (fst r)) (eval_simd F7 no_custom 2 (l7 [0; 0]%Z) nested
    (map l7 [[1; 0]; [2; 1]; [3; 1]; [4; 2]]%Z) [l7 [5; 6]%Z]) = Some [[2; 1]; [2; 2]]%Z.
Proof. vm_compute. reflexivity. Qed.
