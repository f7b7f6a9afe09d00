(** Model of prover/arith/polynomials/src (eq.rs, mle.rs, univariate.rs).
    Field elements are an abstract field; slices and vectors are lists; an
    out-of-range index or a failed assertion is [None].  The mixed field types
    of the Rust generics (challenge field, SIMD field) are one field here. *)
From Coq Require Import List Arith Bool.
From Verif Require Import Base.Field Base.Array.
Import ListNotations.

Section Model.
Variable K : field.
Local Open Scope fld_scope.

(** ** eq.rs *)

(** eq.rs:144-149  eq *)
Definition eq1 (x y : K) : K := let xy := x * y in xy + xy - x - y + 1.

(** eq.rs:32-43  build_eq_x_r_with_buf.  State: the buffer and cur_eval_num. *)
Definition build_eq_step (r_i : K) (st : list K * nat) : option (list K * nat) :=
  let (buf, cur) := st in
  let* buf' := for_in (seq 0 cur) (fun j b =>
      let* e := aget b j in
      let* b1 := aset b (j + cur) (e * r_i) in
      let* hi := aget b1 (j + cur) in
      let* lo := aget b1 j in
      aset b1 j (lo - hi)) buf in
  Some (buf', (cur * 2)%nat).
Definition build_eq_x_r_with_buf (r : list K) (mul_factor : K) (buf : list K) : option (list K) :=
  let* b0 := aset buf 0 mul_factor in
  let* st := for_each r build_eq_step (b0, 1%nat) in
  Some (fst st).

(** eq.rs:11-28  eq_eval_at.  Returns the three buffers (eq_evals, sqrt_n_1st,
    sqrt_n_2nd).  [iter_mut().enumerate().take(n)] visits min(n, len) cells. *)
Definition eq_eval_at (r : list K) (mul_factor : K) (eq_evals s1 s2 : list K)
  : option (list K * list K * list K) :=
  let first_half_bits := (length r / 2)%nat in
  let* s1' := build_eq_x_r_with_buf (firstn first_half_bits r) mul_factor s1 in
  let* s2' := build_eq_x_r_with_buf (skipn first_half_bits r) 1 s2 in
  let* out := for_in (seq 0 (Nat.min (2 ^ length r) (length eq_evals))) (fun i b =>
      let* x := aget s1' (Nat.modulo i (2 ^ first_half_bits)) in
      let* y := aget s2' (Nat.div i (2 ^ first_half_bits)) in
      aset b i (x * y)) eq_evals in
  Some (out, s1', s2').

(** eq.rs:47-52  eq_vec ([zip] stops at the shorter slice). *)
Definition eq_vec (xs ys : list K) : K :=
  fold_left (fun acc xy => acc * eq1 (fst xy) (snd xy)) (combine xs ys) 1.

(** eq.rs:163-197  build_eq_x_r_helper, and build_eq_x_r (64-80) *)
Fixpoint build_eq_x_r (r : list K) : list K :=
  match r with
  | [] => [1]
  | r0 :: rest =>
    match rest with
    | [] => [1 - r0; r0]
    | _ => flat_map (fun bi => let tmp := r0 * bi in [bi - tmp; tmp]) (build_eq_x_r rest)
    end
  end.

(** eq.rs:106-120  scaled_evals_jolt; evals_jolt (86-100) is the case
    mul_factor = 1.  The inner index sequence (0..size).rev().step_by(2) is
    size-1, size-3, .., 1. *)
Definition rev_odds (size : nat) : list nat := map (fun k => (size - 1 - 2 * k)%nat) (seq 0 (size / 2)).
Definition jolt_step (rj : K) (st : list K * nat) : option (list K * nat) :=
  let (evals, size0) := st in
  let size := (size0 * 2)%nat in
  let* evals' := for_in (rev_odds size) (fun i e =>
      let* scalar := aget e (i / 2)%nat in
      let* e1 := aset e i (scalar * rj) in
      let* ei := aget e1 i in
      aset e1 (i - 1) (scalar - ei)) evals in
  Some (evals', size).
Definition scaled_evals_jolt (r : list K) (mul_factor : K) : option (list K) :=
  let* st := for_each (rev r) jolt_step (repeat mul_factor (2 ^ length r), 1%nat) in
  Some (fst st).
Definition evals_jolt (r : list K) : option (list K) := scaled_evals_jolt r 1.

(** eq.rs:125-139  ith_eq_vec_elem *)
Fixpoint ith_loop (r : list K) (index : nat) (acc : K) : K :=
  match r with
  | [] => acc
  | r_i :: rest =>
    let term := if Nat.even index then 1 - r_i else r_i in
    ith_loop rest (Nat.div2 index) (acc * term)
  end.
Definition ith_eq_vec_elem (r : list K) (index : nat) : option K :=
  let* _ := guard (index <? 2 ^ length r) in Some (ith_loop r index 1).

(** ** mle.rs *)

(** mle.rs:80-88  fix_top_variable *)
Definition fix_top_variable (coeffs : list K) (r : K) : list K :=
  let n := (length coeffs / 2)%nat in
  map (fun ab => fst ab + r * (snd ab - fst ab)) (combine (firstn n coeffs) (skipn n coeffs)).

(** mle.rs:91-101  fix_bottom_variable *)
Definition fix_bottom_variable (coeffs : list K) (point : K) : option (list K) :=
  let n := (length coeffs / 2)%nat in
  let* c := for_in (seq 0 n) (fun i c =>
      let* a := aget c i in
      let* h := aget c (2 * i + 1) in
      let* l := aget c (2 * i) in
      aset c i (a + (h - l) * point)) coeffs in
  Some (firstn n c).

(** mle.rs:109-117  eval_reverse_order *)
Definition eval_reverse_order (coeffs : list K) (partial_point : list K) : option K :=
  aget (fold_left fix_top_variable partial_point coeffs) 0.

(** mle.rs:123-129  fix_variables *)
Definition fix_variables (coeffs : list K) (partial_point : list K) : list K :=
  fold_left fix_top_variable (rev partial_point) coeffs.

(** mle.rs:136-146  evaluate_jolt.  [get_num_vars] is log2 of the length. *)
Definition evaluate_jolt (coeffs r : list K) : option K :=
  let* _ := guard (length r =? Nat.log2_up (length coeffs)) in
  let* chis := evals_jolt r in
  let* _ := guard (length chis =? length coeffs) in
  Some (fold_left fadd (map (fun cc => fst cc * snd cc) (combine coeffs chis)) 0).

(** mle.rs:153-185  evaluate_with_buffer *)
Definition evaluate_with_buffer (evals point scratch : list K) : option K :=
  let* _ := guard (2 ^ length point =? length evals) in
  let* _ := guard (length evals <=? length scratch) in
  match point with
  | [] => aget evals 0
  | p0 :: rest =>
    let* s := for_in (seq 0 (length evals / 2)) (fun i s =>
        let* h := aget evals (i * 2 + 1) in
        let* l := aget evals (i * 2) in
        aset s i (p0 * (h - l) + l)) scratch in
    let* st := for_each rest (fun r (st : list K * nat) =>
        let (s, cur) := st in
        let* s' := for_in (seq 0 cur) (fun i s =>
            let* l := aget s (i * 2) in
            let* h := aget s (i * 2 + 1) in
            aset s i (l + (h - l) * r)) s in
        Some (s', (cur / 2)%nat)) (s, (length evals / 4)%nat) in
    aget (fst st) 0
  end.

(** mle.rs:35-53  interpolate_over_hypercube_impl.  [chunks_mut] splits the
    vector into pieces of chunk_size; each piece is split in the middle and the
    left half is subtracted from the right half. *)
Fixpoint chunks (fuel size : nat) (l : list K) : list (list K) :=
  match fuel with
  | O => []
  | S f => match l with [] => [] | _ => firstn size l :: chunks f size (skipn size l) end
  end.
Definition interp_chunk (half : nat) (chunk : list K) : list K :=
  firstn half chunk ++ map (fun ab => fst ab - snd ab) (combine (skipn half chunk) (firstn half chunk)).
Definition interpolate_over_hypercube (evals : list K) : list K :=
  fold_left (fun coeffs i => flat_map (interp_chunk (2 ^ i / 2)) (chunks (length coeffs) (2 ^ i) coeffs))
    (seq 1 (Nat.log2_up (length evals))) evals.

(** ** univariate.rs *)

(** univariate.rs:59-66  evaluate (Horner) *)
Definition uni_evaluate (coeffs : list K) (point : K) : K :=
  fold_left (fun eval t => eval * point + t) (rev coeffs) 0.

(** univariate.rs:71-87  degree_one_quotient *)
Definition degree_one_quotient (coeffs : list K) (alpha : K) : option (list K * K) :=
  let* d := for_in (rev (seq 1 (length coeffs - 1))) (fun i d =>
      let* c := aget d i in
      let* b := aget d (i - 1) in
      aset d (i - 1) (b + c * alpha)) coeffs in
  let* final_remainder := aget d 0 in
  Some (skipn 1 d ++ [0], final_remainder).

(** univariate.rs:93-108  root_vanishing_quotient *)
Definition root_step (coeffs : list K) (ith_root : nat) (r : K) : option (list K) :=
  let* c := for_in (rev (seq (1 + ith_root) (length coeffs - (1 + ith_root)))) (fun i c =>
      let* x := aget c i in
      let* y := aget c (i - 1) in
      aset c (i - 1) (y + x * r)) coeffs in
  let* x := aget c ith_root in
  let* _ := guard (feqb x 0) in
  Some c.
Fixpoint root_loop (coeffs : list K) (k : nat) (roots : list K) : option (list K) :=
  match roots with
  | [] => Some coeffs
  | r :: rest => let* c := root_step coeffs k r in root_loop c (S k) rest
  end.
Definition root_vanishing_quotient (coeffs roots : list K) : option (list K) :=
  let* c := root_loop coeffs 0 roots in
  let* _ := guard (length roots <=? length c) in
  Some (skipn (length roots) c ++ repeat 0 (length roots)).

(** univariate.rs:216-227  EqUnivariatePoly::evaluate *)
Definition eq_uni_evaluate (point : list K) (x : K) : K :=
  fst (fold_left (fun (st : K * K) e => let (eval, x_pow) := st in
         (eval * (x_pow * e + 1 - e), x_pow * x_pow)) point (1, x)).

End Model.
Arguments eq1 {_}. Arguments build_eq_step {_}. Arguments build_eq_x_r_with_buf {_}. Arguments eq_eval_at {_}.
Arguments eq_vec {_}. Arguments build_eq_x_r {_}. Arguments jolt_step {_}. Arguments scaled_evals_jolt {_}.
Arguments evals_jolt {_}. Arguments ith_loop {_}. Arguments ith_eq_vec_elem {_}. Arguments fix_top_variable {_}.
Arguments fix_bottom_variable {_}. Arguments eval_reverse_order {_}. Arguments fix_variables {_}.
Arguments evaluate_jolt {_}. Arguments evaluate_with_buffer {_}. Arguments chunks {_}. Arguments interp_chunk {_}.
Arguments interpolate_over_hypercube {_}. Arguments uni_evaluate {_}. Arguments degree_one_quotient {_}.
Arguments root_step {_}. Arguments root_loop {_}. Arguments root_vanishing_quotient {_}. Arguments eq_uni_evaluate {_}.
