(** C21, C22, C23, C24: the GKR prover and verifier.
    Spec/Gkr.v: [circuit_ok n ls] says that the layers ls are non-empty, fit together, read and
    write inside their inputs and outputs and use public inputs below n only, [simd_ok s vs] that
    the SIMD values vs have 2^s lanes.
    The transcript is arbitrary: any state with an absorbing and a (possibly panicking) sampling
    operation.  The proof is a list of field elements, [None] standing for bytes that do not
    decode. *)
From Coq Require Import List Arith Bool Lia ZArith.
From Verif Require Import Base.Field Base.Array Base.SmallField Spec.Multilinear Spec.Gkr
  Model.Layered Model.Gkr Model.GkrProver Proofs.GkrVerify Proofs.GkrSound Proofs.GkrComplete Proofs.GkrEdge Spec.Sumcheck.
Import ListNotations.
Local Open Scope fld_scope.

(** ** C21  completeness *)

(** For every circuit whose layers have at least one input variable (the loader makes it so) and at
    least one layer with as many inputs as the circuit has outputs, all inputs and public inputs of
    2^simd_vars lanes, and every transcript whose sampling does not panic: the prover does not panic,
    its claimed value is the multilinear extension of the outputs that the circuit computes in each
    lane, at the point the transcript gives first, and the verifier accepts its proof, reads just
    that proof, ends with the prover's challenge and transcript, and its claims about the inputs
    are true.  The characteristic of the field is at least 7 (interpolation points 0..6).
    Partial: see [C21_wide_output_refuted]. *)
Theorem C21_completeness_partial (K : field) (simd_vars : nat) (T : Type) (append : K -> T -> T) (sample : T -> option (K * T))
    (layers : list (player K)) (zeros : nat) (inputs pub : list (list K)) (t : T) :
  (forall t, sample t <> None) -> (forall k, (1 <= k <= 6)%nat -> f_of_nat k <> 0 :> K) ->
  circuit_ok (length pub) layers -> simd_ok simd_vars pub -> simd_ok simd_vars inputs ->
  (forall l, In l layers -> (1 <= pl_ivars K l)%nat) ->
  (forall l, head layers = Some l -> length inputs = (2 ^ pl_ivars K l)%nat) ->
  (exists l, In l layers /\ (out_vars layers <= pl_ivars K l)%nat) ->
  let lane_inputs j := map (fun x => nth j x 0) inputs in
  exists outs v ch proof t' ch0 t0,
    prove K simd_vars T append sample layers inputs pub t = Some (v, ch, (t', proof)) /\
    (forall j, (j < 2 ^ simd_vars)%nat ->
       evaluate K {| pc_layers := layers; pc_zeros := zeros |} (lane_inputs j) (lane_pub 0 pub 0 j) = Some (outs j)) /\
    sample_from_transcript K simd_vars 0 T sample (out_vars layers) t = Some (ch0, t0) /\
    v = vmle (as_values (fun _ => outs)) (rz_0 ch0) (r_simd ch0) (r_mpi ch0) /\
    forall rest, exists v0 v1,
      gkr_verify K simd_vars 0 T append sample layers pub v (map Some proof ++ rest) t = Some (true, ch, v0, v1, rest, t') /\
      claims_hold (fun _ => lane_inputs) ch v0 v1 = true.
Proof. exact (gkr_complete_spec K simd_vars T append sample layers zeros inputs pub t). Qed.
Print Assumptions C21_completeness_partial.

(** Refuted in general: the prover panics on every circuit with more outputs than any layer has
    inputs. *)
Theorem C21_wide_output_refuted (K : field) (simd_vars : nat) (T : Type) (append : K -> T -> T) (sample : T -> option (K * T))
    (layers : list (player K)) (inputs pub : list (list K)) (t : T) :
  circuit_ok (length pub) layers -> simd_ok simd_vars pub -> simd_ok simd_vars inputs ->
  (forall l, head layers = Some l -> length inputs = (2 ^ pl_ivars K l)%nat) ->
  (forall l, In l layers -> (pl_ivars K l < out_vars layers)%nat) ->
  prove K simd_vars T append sample layers inputs pub t = None.
Proof. exact (wide_output_spec K simd_vars T append sample layers inputs pub t). Qed.
Print Assumptions C21_wide_output_refuted.

(** ** C24  parallel verification *)

(** For every circuit, every proof, well formed or not, and every transcript, the parallel verifier
    and the sequential one return the same verdict, the same challenges and claims about the
    inputs, the same rest of the proof and the same transcript, and panic on the same proofs. *)
Theorem C24_parallel_is_sequential (K : field) (simd_vars mpi_vars : nat) (T : Type) (append : K -> T -> T) (sample : T -> option (K * T))
    (layers : list (player K)) (pub : list (list K)) (v : K) (proof : list (option K)) (t : T) :
  circuit_ok (length pub / 2 ^ mpi_vars) layers -> simd_ok simd_vars pub ->
  gkr_parallel K simd_vars mpi_vars T append sample layers pub v proof t
  = gkr_verify K simd_vars mpi_vars T append sample layers pub v proof t.
Proof. exact (parallel_eq K simd_vars mpi_vars T append sample layers pub v proof t). Qed.
Print Assumptions C24_parallel_is_sequential.

(** ** C22  soundness *)

(** The prover is any function of the challenges it has seen; the verifier's challenges are the list
    rz ++ rs ++ rm ++ r.  [inp k j] are the inputs of lane j of process k that the commitment opens
    to.  If the claimed value is not that of the outputs the circuit computes from them, the
    verifier accepts with true claims about the inputs for at most gkr_error in |S| of the challenges r
    drawn from the set S. *)
Theorem C22_soundness (K : field) (simd_vars mpi_vars : nat) (S : list K) (prover : nat -> list K -> option K)
    (layers : list (player K)) (zeros : nat) (pub : list (list K)) (inp outs : nat -> nat -> list K) (rz rs rm : list K) (v : K) :
  NoDup S -> circuit_ok (length pub / 2 ^ mpi_vars) layers -> simd_ok simd_vars pub ->
  (forall k j, (k < 2 ^ mpi_vars)%nat -> (j < 2 ^ simd_vars)%nat ->
     evaluate K {| pc_layers := layers; pc_zeros := zeros |} (inp k j) (lane_pub mpi_vars pub k j) = Some (outs k j)) ->
  length rz = out_vars layers -> length rs = simd_vars -> length rm = mpi_vars ->
  v <> vmle (as_values outs) rz rs rm ->
  let es := script simd_vars mpi_vars layers in
  let accepted r :=
    match gkr_verify K simd_vars mpi_vars (list K) (tape_append K) (tape_sample K) layers pub v
            (play prover es 0 (rz ++ rs ++ rm) r) (rz ++ rs ++ rm ++ r) with
    | Some (true, ch, v0, v1, _, _) => claims_hold inp ch v0 v1
    | _ => false
    end in
  (length (filter accepted (vectors (draws es) S)) * length S <= gkr_error simd_vars mpi_vars layers * length S ^ draws es)%nat.
Proof. exact (gkr_sound_full K simd_vars mpi_vars S prover layers zeros pub inp outs rz rs rm v). Qed.
Print Assumptions C22_soundness.

(** ** C23  accepted proofs and the constraints *)

(** Partial: the verifier does not compare the claimed value with zero, so acceptance alone does
    not imply that the outputs (the constraints) vanish.  For the claimed value 0 it does, but for a
    small part of all challenges c, those of the first claim included. *)
Theorem C23_zero_claim_partial (K : field) (simd_vars mpi_vars : nat) (S : list K) (prover : nat -> list K -> option K)
    (layers : list (player K)) (zeros : nat) (pub : list (list K)) (inp outs : nat -> nat -> list K) :
  NoDup S -> circuit_ok (length pub / 2 ^ mpi_vars) layers -> simd_ok simd_vars pub ->
  (forall k j, (k < 2 ^ mpi_vars)%nat -> (j < 2 ^ simd_vars)%nat ->
     evaluate K {| pc_layers := layers; pc_zeros := zeros |} (inp k j) (lane_pub mpi_vars pub k j) = Some (outs k j)) ->
  (exists k j o, (k < 2 ^ mpi_vars)%nat /\ (j < 2 ^ simd_vars)%nat /\ (o < 2 ^ out_vars layers)%nat /\ nth o (outs k j) 0 <> 0) ->
  let es := script simd_vars mpi_vars layers in
  let n := (out_vars layers + simd_vars + mpi_vars)%nat in
  let accepted c :=
    match gkr_verify K simd_vars mpi_vars (list K) (tape_append K) (tape_sample K) layers pub 0
            (play prover es 0 (firstn n c) (skipn n c)) c with
    | Some (true, ch, v0, v1, _, _) => claims_hold inp ch v0 v1
    | _ => false
    end in
  (length (filter accepted (vectors (n + draws es) S)) * length S <= (n + gkr_error simd_vars mpi_vars layers) * length S ^ (n + draws es))%nat.
Proof. exact (gkr_zero_sound_full K simd_vars mpi_vars S prover layers zeros pub inp outs). Qed.
Print Assumptions C23_zero_claim_partial.

(** Refuted in general: for the circuit below with two constrained outputs, both non-zero in lane 0,
    every transcript leads to a proof that the verifier accepts, with true claims about the inputs. *)
Theorem C23_accepted_violation_refuted (T : Type) (append : F7 -> T -> T) (sample : T -> option (F7 * T)) (t : T) :
  (forall t, sample t <> None) ->
  exists layers zeros inputs pub outs, let lane_inputs j := map (fun x => nth j x 0) inputs in
    circuit_ok (length pub) layers /\ simd_ok 1 pub /\ simd_ok 1 inputs /\
    evaluate F7 {| pc_layers := layers; pc_zeros := zeros |} (lane_inputs 0%nat) (lane_pub 0 pub 0 0) = Some outs /\
    (exists o, (o < zeros)%nat /\ nth o outs 0 <> 0) /\
    exists v proof ch v0 v1 t',
      gkr_verify F7 1 0 T append sample layers pub v (map Some proof) t = Some (true, ch, v0, v1, [], t') /\
      claims_hold (fun _ => lane_inputs) ch v0 v1 = true.
Proof. exact (accepted_violation T append sample t). Qed.
Print Assumptions C23_accepted_violation_refuted.

(** ** Concrete instances over the field of seven elements *)

Local Open Scope nat_scope.
(** The circuit is that of Proofs/GkrEdge.v: four inputs, first layer: x1 * x2 * 3 + x0 * 2 + pub0 and
    x3; second layer: their product and the second one plus 5; two lanes, one public input. *)
(** the inputs of the two lanes and the outputs *)
Definition inp_ex (k j : nat) : list F7 := if (j =? 0)%nat then l7 [1; 2; 3; 4]%Z else l7 [0; 1; 1; 2]%Z.
Definition outs_ex (k j : nat) : list F7 := if (j =? 0)%nat then l7 [1; 2]%Z else l7 [0; 0]%Z.
Example evaluate_ex k j : k < 2 ^ 0 -> j < 2 ^ 1 ->
  evaluate F7 {| pc_layers := [layer_a; layer_b]; pc_zeros := 2 |} (inp_ex k j) (lane_pub 0 pub_ex k j) = Some (outs_ex k j).
Proof.
  intros Hk Hj. assert (k = 0) as -> by (cbn in Hk; lia). assert (j = 0 \/ j = 1) as [-> | ->] by (cbn in Hj; lia);
  apply ol7_eq; vm_compute; reflexivity.
Qed.
(** so C23's hypothesis holds, and C22's with the false claim 3 at this point *)
Example nonzero_ex : exists k j o, k < 2 ^ 0 /\ j < 2 ^ 1 /\ o < 2 ^ out_vars [layer_a; layer_b] /\ nth o (outs_ex k j) (@f0 F7) <> @f0 F7.
Proof. exists 0, 0, 0. repeat split; try (cbn; lia). intros H. apply (f_equal (fval 7)) in H. vm_compute in H. discriminate. Qed.
Example false_claim_ex : n7 3 <> vmle (as_values outs_ex) (l7 [2]%Z) (l7 [3]%Z) [].
Proof. intros H. apply (f_equal (fval 7)) in H. vm_compute in H. discriminate. Qed.
(** ten challenges; a false claim is accepted with probability at most 20 / |S| *)
Example draws_ex : draws (script 1 0 [layer_a; layer_b]) = 10 /\ gkr_error 1 0 [layer_a; layer_b] = 20.
Proof. split; reflexivity. Qed.
(** C21's other hypotheses *)
Example inputs_ex_ok : simd_ok 1 inputs_ex /\ length inputs_ex = 2 ^ 2 /\ out_vars [layer_a; layer_b] <= 2 /\ 1 <= pl_ivars F7 layer_b.
Proof. split; [intros v [<-|[<-|[<-|[<-|[]]]]]; reflexivity|]. cbn. lia. Qed.
Example char_ex k : 1 <= k <= 6 -> f_of_nat k <> @f0 F7.
Proof. apply char7. Qed.
(** a transcript: a counter, the challenges are its values *)
Example sample_ex : forall t, (fun t : nat => Some (n7 (Z.of_nat t), S t)) t <> None.
Proof. discriminate. Qed.
(** a circuit with two inputs and four outputs *)
Definition layer_wide : player F7 := Build_player F7 1 2 [gate [0; 1] 3 1 TConstant] [gate [0] 0 1 TConstant] [] [].
Example wide_ex : circuit_ok (length (@nil (list F7))) [layer_wide] /\ forall l, In l [layer_wide] -> pl_ivars F7 l < out_vars [layer_wide].
Proof.
  split; [|intros l [<-|[]]; cbn; lia]. split; [discriminate|]. split; [exact I|].
  intros l [<-|[]]; (split; [|split; [|split]]); try reflexivity; intros g Hg; cbn in Hg;
    repeat (destruct Hg as [<-|Hg]; [cbn; repeat (eexists || split); cbn; eauto; cbn; lia|]); destruct Hg.
Qed.
(** Without an input variable the honest proof is rejected (the prover never writes the value it
    sends as its claim about the inputs): the hypothesis on input variables cannot be dropped. *)
Definition layer_0 : player F7 := Build_player F7 0 0 [] [gate [0] 0 1 TConstant] [] [].
Definition count_append (x : F7) (t : nat) : nat := S t.
Definition count_sample (t : nat) : option (F7 * nat) := Some (n7 (Z.of_nat t), S t).
Example no_variable_ex : match prove F7 1 nat count_append count_sample [layer_0] [l7 [3; 4]%Z] [] 2 with
  | Some (v, _, (_, proof)) =>
    match gkr_verify F7 1 0 nat count_append count_sample [layer_0] [] v (map Some proof) 2 with Some (b, _, _, _, _, _) => b = false | None => False end
  | None => False
  end.
Proof. vm_compute. reflexivity. Qed.
