(** C25-C28: equality-polynomial tables, multilinear evaluation, fixing the
    bottom variable, univariate evaluation and quotients.
    [arr l n f]: the vector [l] has length [n] and entry [i] is [f i].
    [eq_point], [mle], [from_coeffs], [poly_at], [times_linear] are defined in
    Spec/Multilinear.v. *)
From Coq Require Import List Arith Lia ZArith Znumtheory.
From Verif Require Import Base.Field Base.Array Base.SmallField Spec.Multilinear Model.Polynomials
  Proofs.Multilinear Proofs.Polynomials Proofs.Polynomials2.
Import ListNotations.
Local Open Scope fld_scope.

(** ** C25  equality tables *)

(** The table built into a caller's buffer: the first 2^n cells hold
    mul * eq(r, i), the other cells are unchanged. *)
Theorem C25_build_eq_with_buf (K : field) (r : list K) (m : K) (buf : list K) (N : nat) (g : nat -> K) :
  arr buf N g -> (2 ^ length r <= N)%nat ->
  exists buf', build_eq_x_r_with_buf r m buf = Some buf' /\
    arr buf' N (fun k => if (k <? 2 ^ length r)%nat then m * eq_point r k else g k).
Proof. exact (build_eq_with_buf_ok K r m buf N g). Qed.
Print Assumptions C25_build_eq_with_buf.

(** The two-halves builder. *)
Theorem C25_eq_eval_at (K : field) (r : list K) (m : K) (e s1 s2 : list K) Ne N1 N2 (ge g1 g2 : nat -> K) :
  arr e Ne ge -> arr s1 N1 g1 -> arr s2 N2 g2 ->
  (2 ^ (length r / 2) <= N1)%nat -> (2 ^ (length r - length r / 2) <= N2)%nat ->
  exists e' s1' s2', eq_eval_at r m e s1 s2 = Some (e', s1', s2') /\
    arr e' Ne (fun k => if (k <? 2 ^ length r)%nat then m * eq_point r k else ge k) /\
    length s1' = N1 /\ length s2' = N2.
Proof. exact (eq_eval_at_ok K r m e s1 s2 Ne N1 N2 ge g1 g2). Qed.
Print Assumptions C25_eq_eval_at.

(** The recursive builder and the Jolt builders. *)
Theorem C25_build_eq (K : field) (r : list K) : arr (build_eq_x_r r) (2 ^ length r) (eq_point r).
Proof. exact (build_eq_ok K r). Qed.
Print Assumptions C25_build_eq.

Theorem C25_jolt_tables (K : field) (r : list K) (m : K) :
  exists e, scaled_evals_jolt r m = Some e /\ arr e (2 ^ length r) (fun k => m * eq_point r k).
Proof. exact (scaled_jolt_ok K r m). Qed.
Print Assumptions C25_jolt_tables.

(** A single entry, and the closed form for two points. *)
Theorem C25_single_entry (K : field) (r : list K) (i : nat) :
  ith_eq_vec_elem r i = if (i <? 2 ^ length r)%nat then Some (eq_point r i) else None.
Proof. exact (ith_eq_ok K r i). Qed.
Print Assumptions C25_single_entry.

Theorem C25_eq_vec (K : field) (xs ys : list K) : length xs = length ys ->
  eq_vec xs ys = mle (eq_point xs) ys /\
  eq_vec xs ys = fprod (map (fun xy => fst xy * snd xy + (1 - fst xy) * (1 - snd xy)) (combine xs ys)).
Proof. exact (fun L => conj (eq_vec_ok K xs ys L) (eq_vec_prod K xs ys L)). Qed.
Print Assumptions C25_eq_vec.

(** A buffer of 5 cells over F_7, challenges (2, 3), scale 4. *)
Example C25_applies :
  (exists g, arr (l7 [0; 1; 2; 3; 5]%Z) 5 g) /\ (2 ^ length (l7 [2; 3]%Z) <= 5)%nat /\
  build_eq_x_r_with_buf (l7 [2; 3]%Z) (n7 4) (l7 [0; 1; 2; 3; 5]%Z) = Some (l7 [1; 5; 2; 3; 5]%Z).
Proof.
  split; [exists (fun i => nth i (l7 [0; 1; 2; 3; 5]%Z) 0); exact (arr_self (l7 [0; 1; 2; 3; 5]%Z) 0)|].
  split; [cbn; lia|]. apply ol7_eq. vm_compute. reflexivity.
Qed.

(** ** C26  multilinear evaluation *)

(** Evaluation by successive halving (the point is consumed from the top
    variable down, so it is given in reverse). *)
Theorem C26_eval_reverse_order (K : field) (c : list K) (f : nat -> K) (pts : list K) :
  arr c (2 ^ length pts) f -> eval_reverse_order c pts = Some (mle f (rev pts)).
Proof. exact (eval_reverse_ok K c f pts). Qed.
Print Assumptions C26_eval_reverse_order.

(** Partial evaluation: fixing the top |pts| variables of an n+|pts| variable
    polynomial leaves the n-variable polynomial r |-> f(r, pts). *)
Theorem C26_fix_variables (K : field) (c : list K) (f : nat -> K) (pts : list K) (n : nat) :
  arr c (2 ^ (n + length pts)) f ->
  exists g, arr (fix_variables c pts) (2 ^ n) g /\
    forall r, length r = n -> mle g r = mle f (r ++ pts).
Proof. exact (fix_variables_ok K c f pts n). Qed.
Print Assumptions C26_fix_variables.

Theorem C26_fix_top_variable (K : field) (c : list K) (n : nat) (f : nat -> K) (a : K) :
  arr c (2 ^ S n) f ->
  exists g, arr (fix_top_variable c a) (2 ^ n) g /\
    forall r, length r = n -> mle g r = mle f (r ++ [a]).
Proof. exact (fix_top_mle K c n f a). Qed.
Print Assumptions C26_fix_top_variable.

Theorem C26_evaluate_jolt (K : field) (c : list K) (f : nat -> K) (r : list K) :
  arr c (2 ^ length r) f -> evaluate_jolt c r = Some (mle f r).
Proof. exact (evaluate_jolt_ok K c f r). Qed.
Print Assumptions C26_evaluate_jolt.

(** The buffered evaluator, whatever the scratch space holds. *)
Theorem C26_evaluate_with_buffer (K : field) (c : list K) (f : nat -> K) (r scratch : list K) :
  arr c (2 ^ length r) f -> (2 ^ length r <= length scratch)%nat ->
  evaluate_with_buffer c r scratch = Some (mle f r).
Proof. exact (evaluate_with_buffer_ok K c f r scratch). Qed.
Print Assumptions C26_evaluate_with_buffer.

(** Conversion to monomial coefficients denotes the same function. *)
Theorem C26_interpolate (K : field) (n : nat) (l : list K) (f : nat -> K) :
  arr l (2 ^ n) f ->
  exists c, arr (interpolate_over_hypercube l) (2 ^ n) c /\
    forall r, length r = n -> from_coeffs c r = mle f r.
Proof. exact (interpolate_ok K n l f). Qed.
Print Assumptions C26_interpolate.

(** [mle] is the multilinear extension: it takes the table's values on the
    Boolean cube. *)
Theorem C26_extension (K : field) (n : nat) (f : nat -> K) (i : nat) :
  (i < 2 ^ n)%nat ->
  mle f (map (fun j => if Nat.testbit i j then 1 else 0) (seq 0 n)) = f i.
Proof. exact (mle_bits K n f i). Qed.
Print Assumptions C26_extension.

Example C26_applies :
  (exists f, arr (l7 [1; 2; 3; 4]%Z) (2 ^ length (l7 [5; 6]%Z)) f) /\
  evaluate_jolt (l7 [1; 2; 3; 4]%Z) (l7 [5; 6]%Z) = Some (n7 4).
Proof.
  split; [exists (fun i => nth i (l7 [1; 2; 3; 4]%Z) 0); exact (arr_self (l7 [1; 2; 3; 4]%Z) 0)|].
  apply o7_eq. vm_compute. reflexivity.
Qed.

(** ** C27  fixing the bottom variable *)

(** False: for the table (0,0,1,0) fixing the lowest variable to 0 gives a
    table whose value at 1 differs from the polynomial's value at (0, 1). *)
Theorem C27_fix_bottom_variable_refuted (K : field) :
  exists c' : list K, fix_bottom_variable [0; 0; 1; 0] 0 = Some c' /\
  forall g, arr c' 2 g -> mle g [1] <> mle (fun i => nth i [0; 0; 1; 0] (0 : K)) [0; 1].
Proof. exact (fix_bottom_wrong K). Qed.
Print Assumptions C27_fix_bottom_variable_refuted.

(** Exactly when it is right: when entry i equals entry 2i on the lower half. *)
Theorem C27_fix_bottom_variable_partial (K : field) (c : list K) (n : nat) (f : nat -> K) (a : K) :
  arr c (2 ^ S n) f ->
  exists c' g, fix_bottom_variable c a = Some c' /\ arr c' (2 ^ n) g /\
    ((forall r, length r = n -> mle g r = mle f (a :: r)) <->
     (forall i, (i < 2 ^ n)%nat -> f i = f (2 * i)%nat)).
Proof. exact (fix_bottom_iff K c n f a). Qed.
Print Assumptions C27_fix_bottom_variable_partial.

Example C27_applies : exists f, arr (l7 [1; 2; 2; 4]%Z) (2 ^ 2) f /\
  forall i, (i < 2 ^ 1)%nat -> f i = f (2 * i)%nat.
Proof.
  exists (fun i => nth i (l7 [1; 2; 2; 4]%Z) 0). split; [exact (arr_self (l7 [1; 2; 2; 4]%Z) 0)|].
  intros [|[|i]] Hi; cbn in Hi; auto; lia.
Qed.

(** ** C28  univariate polynomials *)

Theorem C28_evaluate (K : field) (c : list K) (x : K) : uni_evaluate c x = poly_at c x.
Proof. exact (uni_evaluate_ok K c x). Qed.
Print Assumptions C28_evaluate.

Theorem C28_degree_one_quotient (K : field) (c : list K) (alpha : K) : c <> [] ->
  exists q rem, degree_one_quotient c alpha = Some (q, rem) /\ length q = length c /\
    rem = poly_at c alpha /\ forall x, poly_at c x = (x - alpha) * poly_at q x + rem.
Proof. exact (degree_one_ok K c alpha). Qed.
Print Assumptions C28_degree_one_quotient.

(** Division by the product of (x - root): succeeds exactly when the
    polynomial is that product times a quotient, and returns the quotient
    padded with zeros. *)
Theorem C28_root_vanishing_quotient (K : field) (c roots out : list K) :
  root_vanishing_quotient c roots = Some out <->
  exists q, out = q ++ repeat 0 (length roots) /\ c = fold_right times_linear q roots.
Proof. exact (root_vanishing_ok K c roots out). Qed.
Print Assumptions C28_root_vanishing_quotient.

(** [times_linear] multiplies by (x - r). *)
Theorem C28_product_of_roots (K : field) (roots q : list K) (x : K) :
  poly_at (fold_right times_linear q roots) x = fprod (map (fun r => x - r) roots) * poly_at q x.
Proof. exact (fold_times_at K roots q x). Qed.
Print Assumptions C28_product_of_roots.

(** The equality polynomial with coefficients eq(point, i). *)
Theorem C28_eq_univariate (K : field) (point : list K) (x : K) :
  eq_uni_evaluate point x = sumn (2 ^ length point) (fun i => eq_point point i * fpow x i).
Proof. exact (eq_uni_ok K point x). Qed.
Print Assumptions C28_eq_univariate.

(** (x-2)(x-3)(x+1) divided by the roots 2, 3. *)
Example C28_applies : l7 [6; 1; -4; 1]%Z = fold_right times_linear (l7 [1; 1]%Z) (l7 [2; 3]%Z) /\
  l7 [6; 1; -4; 1]%Z <> [].
Proof. split; [|discriminate]. apply l7_eq. vm_compute. reflexivity. Qed.
