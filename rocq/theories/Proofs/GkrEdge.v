(** Consequences and edge cases of GKR completeness, with a concrete circuit. *)
From Coq Require Import List Arith Bool Lia ZArith.
From Verif Require Import Base.Field Base.Array Base.SmallField Spec.Multilinear Spec.Gkr
  Model.Layered Model.Gkr Model.GkrProver Proofs.GkrVerify Proofs.GkrProve Proofs.GkrComplete.
Import ListNotations.
Local Open Scope fld_scope.

Lemma head_match (K : field) (layers : list (player K)) (inputs : list (list K)) :
  (forall l, head layers = Some l -> length inputs = (2 ^ pl_ivars K l)%nat) ->
  match layers with l :: _ => length inputs = (2 ^ pl_ivars K l)%nat | [] => True end.
Proof. destruct layers; intros H; [exact I|]. now apply H. Qed.
Theorem gkr_complete_spec (K : field) (simd_vars : nat) (T : Type) (append : K -> T -> T) (sample : T -> option (K * T))
    (layers : list (player K)) (zeros : nat) (inputs pub : list (list K)) (t : T) :
  (forall t, sample t <> None) -> (forall k, (1 <= k <= 6)%nat -> f_of_nat k <> 0 :> K) ->
  circuit_ok (length pub) layers -> simd_ok simd_vars pub -> simd_ok simd_vars inputs ->
  (forall l, In l layers -> (1 <= pl_ivars K l)%nat) ->
  (forall l, head layers = Some l -> length inputs = (2 ^ pl_ivars K l)%nat) ->
  (exists l, In l layers /\ (out_vars layers <= pl_ivars K l)%nat) ->
  let lane_inputs j := map (fun x => nth j x 0) inputs in
  exists outs v ch proof t' ch0 t0,
    prove K simd_vars T append sample layers inputs pub t = Some (v, ch, (t', proof)) /\
    (forall j, (j < 2 ^ simd_vars)%nat ->
       evaluate K {| pc_layers := layers; pc_zeros := zeros |} (lane_inputs j) (lane_pub 0 pub 0 j) = Some (outs j)) /\
    sample_from_transcript K simd_vars 0 T sample (out_vars layers) t = Some (ch0, t0) /\
    v = vmle (as_values (fun _ => outs)) (rz_0 ch0) (r_simd ch0) (r_mpi ch0) /\
    forall rest, exists v0 v1,
      gkr_verify K simd_vars 0 T append sample layers pub v (map Some proof ++ rest) t = Some (true, ch, v0, v1, rest, t') /\
      claims_hold (fun _ => lane_inputs) ch v0 v1 = true.
Proof.
  intros HT HK HC HP HV H1 HI (l & Hl & Ho) lane_inputs.
  apply (gkr_complete K simd_vars T append sample HT layers zeros inputs pub t); auto.
  - now apply head_match.
  - etransitivity; [exact Ho|]. now apply list_max_ge.
Qed.
Theorem wide_output_spec (K : field) (simd_vars : nat) (T : Type) (append : K -> T -> T) (sample : T -> option (K * T))
    (layers : list (player K)) (inputs pub : list (list K)) (t : T) :
  circuit_ok (length pub) layers -> simd_ok simd_vars pub -> simd_ok simd_vars inputs ->
  (forall l, head layers = Some l -> length inputs = (2 ^ pl_ivars K l)%nat) ->
  (forall l, In l layers -> (pl_ivars K l < out_vars layers)%nat) ->
  prove K simd_vars T append sample layers inputs pub t = None.
Proof.
  intros HC HP HV HI HO. apply wide_output_panics; auto; [now apply head_match|].
  destruct HC as (Hne & _). unfold list_max_vars.
  assert (X : forall m ls, (0 < m)%nat -> (forall l : player K, In l ls -> (pl_ivars K l < m)%nat) -> (fold_right Nat.max 0%nat (map (pl_ivars K) ls) < m)%nat).
  { intros m ls Hm. induction ls as [|a ls IH]; intros H; cbn; [auto|]. apply Nat.max_lub_lt; auto with datatypes. }
  apply X; auto. destruct layers as [|a ls]; [easy|]. specialize (HO a (or_introl eq_refl)). lia.
Qed.

Local Open Scope nat_scope.
Definition gate (ins : list nat) (out : nat) (c : Z) (ct : coef_type) : pgate F7 :=
  Build_pgate F7 ins out (n7 c) ct 0.
(** Four inputs, first layer: x1 * x2 * 3 + x0 * 2 + pub0 and x3; second layer: their product and
    the second one plus 5. *)
Definition layer_a : player F7 :=
  Build_player F7 2 1 [gate [1; 2] 0 3 TConstant] [gate [0] 0 2 TConstant; gate [3] 1 1 TConstant] [gate [] 0 0 (TPublicInput 0)] [].
Definition layer_b : player F7 :=
  Build_player F7 1 1 [gate [0; 1] 0 1 TConstant] [gate [1] 1 1 TConstant] [gate [] 1 5 TConstant] [].
(** two lanes, one public input *)
Definition pub_ex : list (list F7) := [l7 [3; 4]%Z].

Example circuit_ok_ex : circuit_ok (length pub_ex / 2 ^ 0) [layer_a; layer_b].
Proof.
  split; [discriminate|]. split; [cbn; auto|].
  intros l [<-|[<-|[]]]; (split; [|split; [|split]]); try reflexivity; intros g Hg; cbn in Hg;
    repeat (destruct Hg as [<-|Hg]; [cbn; repeat (eexists || split); cbn; eauto; cbn; lia|]); destruct Hg.
Qed.
Example simd_ok_ex : simd_ok 1 pub_ex.
Proof. intros v [<-|[]]. reflexivity. Qed.


Definition inputs_ex : list (list F7) := [l7 [1; 0]%Z; l7 [2; 1]%Z; l7 [3; 1]%Z; l7 [4; 2]%Z].
Lemma char7 k : 1 <= k <= 6 -> f_of_nat k <> @f0 F7.
Proof.
  intros H. assert (k = 1 \/ k = 2 \/ k = 3 \/ k = 4 \/ k = 5 \/ k = 6) as D by lia.
  intros E. apply (f_equal (fval 7)) in E. repeat destruct D as [->|D]; try (vm_compute in E; discriminate). subst k. vm_compute in E. discriminate.
Qed.
Theorem accepted_violation (T : Type) (append : F7 -> T -> T) (sample : T -> option (F7 * T)) (t : T) :
  (forall t, sample t <> None) ->
  exists layers zeros inputs pub outs, let lane_inputs j := map (fun x => nth j x 0%K) inputs in
    circuit_ok (length pub) layers /\ simd_ok 1 pub /\ simd_ok 1 inputs /\
    evaluate F7 {| pc_layers := layers; pc_zeros := zeros |} (lane_inputs 0%nat) (lane_pub 0 pub 0 0) = Some outs /\
    (exists o, (o < zeros)%nat /\ nth o outs 0%K <> 0%K) /\
    exists v proof ch v0 v1 t',
      gkr_verify F7 1 0 T append sample layers pub v (map Some proof) t = Some (true, ch, v0, v1, [], t') /\
      claims_hold (fun _ => lane_inputs) ch v0 v1 = true.
Proof.
  intros HT.
  assert (HI : simd_ok 1 inputs_ex) by (intros v [<-|[<-|[<-|[<-|[]]]]]; reflexivity).
  destruct (gkr_complete_spec F7 1 T append sample [layer_a; layer_b] 2 inputs_ex pub_ex t HT char7 circuit_ok_ex simd_ok_ex HI)
    as (outs & v & ch & proof & t' & ch0 & t0 & _ & He & _ & _ & Hv).
  - intros l [<-|[<-|[]]]; cbn; lia.
  - intros l E. injection E as <-. reflexivity.
  - exists layer_a. split; [now left|]. cbn. lia.
  - exists [layer_a; layer_b], 2, inputs_ex, pub_ex, (outs 0). cbv zeta.
    split; [exact circuit_ok_ex|]. split; [exact simd_ok_ex|]. split; [exact HI|]. split; [apply He; cbn; lia|]. split.
    + exists 0. split; [lia|]. assert (X := He 0 ltac:(cbn; lia)).
      assert (Y : evaluate F7 {| pc_layers := [layer_a; layer_b]; pc_zeros := 2 |} (map (fun x => nth 0 x 0%K) inputs_ex) (lane_pub 0 pub_ex 0 0) = Some (l7 [1; 2]%Z))
        by (apply ol7_eq; vm_compute; reflexivity).
      rewrite X in Y. injection Y as ->. intros E. apply (f_equal (fval 7)) in E. vm_compute in E. discriminate.
    + destruct (Hv []) as (v0 & v1 & E & Hc). rewrite app_nil_r in E. exists v, proof, ch, v0, v1, t'. auto.
Qed.
