(** C19, C20, C73: the generic sumcheck for sums of products of multilinear
    polynomials.
    Spec/Sumcheck.v: [cube_sum n P] is the sum of P over {0,1}^n, [sop_poly p] the
    polynomial of a list of pairs of tables, [well_formed n p] says that the
    tables have power-of-two sizes up to 2^n, [round_poly n P pre] is the honest
    round polynomial after the challenges [pre], [through e0 e1 e2 q] says that q
    is the quadratic with these values at 0, 1, 2, [answers prover n r] are the
    messages of a prover who sees the challenges one by one, [vectors n S] are
    all vectors over S.
    The transcript is arbitrary: any state with an absorbing and a sampling
    operation. *)
From Coq Require Import List Arith Bool Lia ZArith.
From Verif Require Import Base.Field Base.Array Base.Poly Base.SmallField Spec.Multilinear Spec.Sumcheck
  Model.Sumcheck Proofs.Sumcheck Proofs.SumcheckMain.
Import ListNotations.
Local Open Scope fld_scope.

(** ** C19  completeness *)

(** For every sum of products and every transcript, the honest prover does not
    panic, the verifier accepts the true sum, both sides draw the same
    challenges and end in the same transcript state, and the subclaim is true. *)
Theorem C19_sumcheck_complete (K : field) (T : Type) (append : list K -> T -> T) (sample : T -> K * T)
    (n : nat) (p : list (list K * list K)) (t : T) :
  (1 + 1 : K) <> 0 -> (1 <= n)%nat -> well_formed n p ->
  exists pf t', prove append sample p t = Some (pf, t') /\ length (point pf) = n /\
    verify append sample (cube_sum n (sop_poly p)) pf n t
      = Some (true, {| sub_point := point pf; expected_evaluation := sop_poly p (point pf) |}, t') /\
    extract_sum pf = Some (cube_sum n (sop_poly p)).
Proof. exact (complete K T append sample n p t). Qed.
Print Assumptions C19_sumcheck_complete.

(** The polynomial's own methods compute the same sum and the same values. *)
Theorem C19_sum_is_cube_sum (K : field) (n : nat) (p : list (list K * list K)) :
  well_formed n p -> sum p = cube_sum n (sop_poly p) /\ num_vars p = n.
Proof. intros H. exact (conj (sum_eq K n p H) (well_formed_num_vars K n p H)). Qed.
Print Assumptions C19_sum_is_cube_sum.

Theorem C19_evaluate (K : field) (n : nat) (p : list (list K * list K)) (x : list K) :
  well_formed n p -> length x = n -> evaluate p x = Some (sop_poly p x).
Proof. intros H. exact (eval_at K n p x (proj1 H)). Qed.
Print Assumptions C19_evaluate.

(** ** C20  soundness *)

(** If the verifier accepts a false sum and the final evaluation is right, then
    in some round the prover's quadratic differs from the honest one but agrees
    with it at the challenge, which was drawn after the quadratic was absorbed;
    at most two challenges do that. *)
Theorem C20_false_sum_needs_lucky_challenge (K : field) (T : Type) (append : list K -> T -> T) (sample : T -> K * T)
    (n : nat) (P : list K -> K) (s : K) (pf : iop_proof K) (t : T) (sc : subclaim K) (t' : T) :
  (1 + 1 : K) <> 0 -> individual_degree 2 n P ->
  verify append sample s pf n t = Some (true, sc, t') ->
  expected_evaluation sc = P (sub_point sc) ->
  s <> cube_sum n P ->
  exists i e0 e1 e2 rest q,
    (i < n)%nat /\ length (sub_point sc) = n /\
    nth_error (proofs pf) i = Some (e0 :: e1 :: e2 :: rest) /\
    let c := nth i (sub_point sc) 0 in
    let honest := round_poly n P (firstn i (sub_point sc)) in
    c = fst (sample (append (e0 :: e1 :: e2 :: rest) (after append sample (firstn i (proofs pf)) t))) /\
    through e0 e1 e2 q /\ (exists x, q x <> honest x) /\ q c = honest c /\
    forall cs, NoDup cs -> (forall x, In x cs -> q x = honest x) -> (length cs <= 2)%nat.
Proof. exact (sound K T append sample n P s pf t sc t'). Qed.
Print Assumptions C20_false_sum_needs_lucky_challenge.

(** The same as a count: against challenges drawn from any finite set S of field
    elements, a prover who adapts each message to the challenges so far gets a
    false sum accepted for at most 2 n |S|^(n-1) of the |S|^n challenge
    vectors. *)
Theorem C20_adaptive_prover_bound (K : field) (n : nat) (P : list K -> K) (s : K) (prover : list K -> list K) (S : list K) :
  (1 + 1 : K) <> 0 -> individual_degree 2 n P -> s <> cube_sum n P -> NoDup S ->
  (length (filter (fun r =>
      match verify ignore next s {| proofs := answers prover n r; point := [] |} n r with
      | Some (true, sc, _) => feqb (expected_evaluation sc) (P (sub_point sc))
      | _ => false
      end) (vectors n S))
   <= 2 * n * length S ^ (n - 1))%nat.
Proof. exact (count K n P s prover S). Qed.
Print Assumptions C20_adaptive_prover_bound.

(** The polynomials of the code have degree at most 2 in every variable. *)
Theorem C20_degree (K : field) (n : nat) (p : list (list K * list K)) : individual_degree 2 n (sop_poly p).
Proof. exact (sop_degree K p n). Qed.
Print Assumptions C20_degree.

(** ** C73  malformed proofs *)

(** A proof with a missing round, or with a round of fewer than three values,
    crashes the verifier. *)
Theorem C73_malformed_proof_refuted (K : field) (T : Type) (append : list K -> T -> T) (sample : T -> K * T)
    (s : K) (t : T) :
  verify append sample s {| proofs := []; point := [] |} 1 t = None /\
  verify append sample s {| proofs := [[s; 0]]; point := [] |} 1 t = None.
Proof. exact (malformed K T append sample s t). Qed.
Print Assumptions C73_malformed_proof_refuted.

(** With enough rounds, each of at least three values, it always answers. *)
Theorem C73_answers_partial (K : field) (T : Type) (append : list K -> T -> T) (sample : T -> K * T)
    (s : K) (pf : iop_proof K) (n : nat) (t : T) :
  (1 + 1 : K) <> 0 -> (1 <= n <= length (proofs pf))%nat -> (forall m, In m (proofs pf) -> (3 <= length m)%nat) ->
  exists b sc t', verify append sample s pf n t = Some (b, sc, t').
Proof. exact (verify_total K T append sample s pf n t). Qed.
Print Assumptions C73_answers_partial.

(** ** Concrete instances over the field of seven elements *)

Definition p_ex : list (list F7 * list F7) := [(l7 [1; 2; 3; 4]%Z, l7 [5; 6; 0; 1]%Z); (l7 [2; 3]%Z, l7 [1; 1]%Z)].

Example two_nonzero : (1 + 1 : F7) <> 0.
Proof. intros H. apply (f_equal (fval 7)) in H. discriminate. Qed.

Example well_formed_ex : well_formed 2 p_ex.
Proof.
  split.
  - intros f g [E|[E|[]]]; injection E as <- <-; [exists 2%nat|exists 1%nat]; repeat split; auto.
  - do 2 eexists. split; [left; reflexivity|reflexivity].
Qed.

(** 1*5 + 2*6 + 3*0 + 4*1 + 2*1 + 3*1 = 26 = 5 mod 7. *)
Example sum_ex : sum p_ex = n7 5.
Proof. apply fval_inj. reflexivity. Qed.
Example prove_ex : exists pf t', prove ignore next p_ex (l7 [3; 4]%Z) = Some (pf, t') /\ point pf = l7 [3; 4]%Z.
Proof.
  destruct (C19_sumcheck_complete F7 (list F7) ignore next 2 p_ex (l7 [3; 4]%Z) two_nonzero ltac:(lia) well_formed_ex)
    as (pf & t' & E & _). exists pf, t'. split; [exact E|].
  assert (H : option_map (fun x : iop_proof F7 * list F7 => map (fval 7) (point (K := F7) (fst x))) (prove ignore next p_ex (l7 [3; 4]%Z)) = Some [3; 4]%Z)
    by (vm_compute; reflexivity).
  rewrite E in H. cbn in H. injection H as H. now apply l7_eq.
Qed.

(** The bound is attained: one variable, the sum of (1 + x)(3 + x) over {0, 1} is
    4, the claim is 5, and the quadratic with values 2, 3, 1 is accepted for two
    of the seven challenges. *)
Definition q_ex : list (list F7 * list F7) := [(l7 [1; 2]%Z, l7 [3; 4]%Z)].
Definition all7 : list F7 := l7 [0; 1; 2; 3; 4; 5; 6]%Z.
Example bound_attained :
  n7 5 <> cube_sum 1 (sop_poly q_ex) /\ NoDup all7 /\
  length (filter (fun r =>
      match verify ignore next (n7 5) {| proofs := answers (fun _ => l7 [2; 3; 1]%Z) 1 r; point := [] |} 1 r with
      | Some (true, sc, _) => feqb (expected_evaluation sc) (sop_poly q_ex (sub_point sc))
      | _ => false
      end) (vectors 1 all7)) = 2%nat.
Proof.
  split; [|split].
  - intros H. apply (f_equal (fval 7)) in H. vm_compute in H. discriminate.
  - apply (NoDup_map_inv (fval 7)). vm_compute. repeat constructor; cbn; intuition discriminate.
  - vm_compute. reflexivity.
Qed.
