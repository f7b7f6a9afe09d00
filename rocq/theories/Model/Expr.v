(** Model of the expressions of the circuit compiler,
    compiler/expander_compiler/src/circuit/ir/expr.rs: sums of terms
    [coef * vars] kept normalised, sorted and without duplicates, and the linear
    combinations of the instruction sets.
    The field is the abstract [K]; [kcmp] is the order on field elements that
    the derived [Ord] of a term uses for its second component (any function: the
    theorems do not depend on it).  A panic ([panic!], failed [assert!],
    [unwrap] of [None], out-of-range index) is [None].
    Not modelled: [hash_cache] (expr.rs:207-236), which only speeds up equality
    (equality is [terms] equality), Display and the serialisation. *)
From Coq Require Import List Bool Arith.
Import ListNotations.
From Verif Require Import Base.Array Base.Field.

(** expr.rs:19-29 VarSpec *)
Inductive varspec :=
| VConst
| VLin (x : nat)
| VQuad (x y : nat)
| VCustom (g : nat) (ins : list nat)
| VRandom (x : nat).

(** the derived order of VarSpec (expr.rs:19): the position of the variant, then
    the fields in order, vectors lexicographically; that is the lexicographic
    order of the following list *)
Definition vs_code (v : varspec) : list nat :=
  match v with
  | VConst => [0]
  | VLin x => [1; x]
  | VQuad x y => [2; x; y]
  | VCustom g ins => 3 :: g :: ins
  | VRandom x => [4; x]
  end.
(** [Ord] for [Vec<usize>]: lexicographic, a strict prefix is smaller *)
Fixpoint lex_cmp (a b : list nat) : comparison :=
  match a, b with
  | [], [] => Eq
  | [], _ :: _ => Lt
  | _ :: _, [] => Gt
  | x :: r, y :: s => match Nat.compare x y with Eq => lex_cmp r s | c => c end
  end.
Definition vs_cmp (a b : varspec) : comparison := lex_cmp (vs_code a) (vs_code b).
Definition vs_ltb (a b : varspec) : bool := match vs_cmp a b with Lt => true | _ => false end.
(** derived PartialEq *)
Definition vs_eqb (a b : varspec) : bool := match vs_cmp a b with Eq => true | _ => false end.

(** expr.rs:32-44 normalize *)
Definition vs_normalize (v : varspec) : varspec :=
  match v with
  | VQuad a b => if a <? b then VQuad b a else v
  | _ => v
  end.
(** expr.rs:45-53 is_normalized *)
Definition vs_is_normalized (v : varspec) : bool :=
  match v with VQuad a b => b <=? a | _ => true end.
(** expr.rs:54-81 mul *)
Definition vs_mul (a b : varspec) : option varspec :=
  match a, b with
  | VConst, VConst => Some VConst
  | VConst, VLin x => Some (VLin x)
  | VConst, VQuad x y => Some (VQuad x y)
  | VConst, VCustom g ins => Some (VCustom g ins)
  | VLin x, VConst => Some (VLin x)
  | VLin x, VLin y => Some (VQuad x y)
  | VQuad x y, VConst => Some (VQuad x y)
  | VCustom g ins, VConst => Some (VCustom g ins)
  | _, _ => None
  end.

(** the variables of one term, as in expr.rs:334-342 *)
Definition vs_vars (v : varspec) : list nat :=
  match v with
  | VConst => []
  | VLin x => [x]
  | VQuad x y => [x; y]
  | VCustom _ ins => ins
  | VRandom x => [x]
  end.

Section Expr.
Variable K : field.
Variable kcmp : K -> K -> comparison.

(** expr.rs:13-17 Term *)
Record term := mkTerm { t_coef : K; t_vars : varspec }.
(** expr.rs:207-211 Expression (without the hash) *)
Definition expr := list term.

(** expr.rs:96-105 Ord for Term; 246-250 Ord for Expression *)
Definition term_cmp (a b : term) : comparison :=
  match vs_cmp (t_vars a) (t_vars b) with Eq => kcmp (t_coef a) (t_coef b) | c => c end.
Fixpoint expr_cmp (a b : expr) : comparison :=
  match a, b with
  | [], [] => Eq
  | [], _ :: _ => Lt
  | _ :: _, [] => Gt
  | x :: r, y :: s => match term_cmp x y with Eq => expr_cmp r s | c => c end
  end.
(** expr.rs:13, 232-236 equality *)
Definition term_eqb (a b : term) : bool :=
  feqb (t_coef a) (t_coef b) && vs_eqb (t_vars a) (t_vars b).
Fixpoint expr_eqb (a b : expr) : bool :=
  match a, b with
  | [], [] => true
  | x :: r, y :: s => term_eqb x y && expr_eqb r s
  | _, _ => false
  end.

(** [sort]/[sort_by] of the standard library: a stable sort, here by insertion *)
Section Sort.
Context {A : Type}.
Variable cmp : A -> A -> comparison.
Fixpoint insert (x : A) (l : list A) : list A :=
  match l with
  | [] => [x]
  | y :: r => match cmp x y with Gt => y :: insert x r | _ => x :: l end
  end.
Definition sort_by (l : list A) : list A := fold_right insert [] l.
End Sort.

(** expr.rs:114-141, 157-162 the constructors of terms and their product *)
Definition t_const (c : K) : term := mkTerm c VConst.
Definition t_linear (c : K) (x : nat) : term := mkTerm c (VLin x).
Definition t_quad (c : K) (x y : nat) : term :=
  mkTerm c (if x <? y then VQuad y x else VQuad x y).
Definition t_random (x : nat) : term := mkTerm f1 (VRandom x).
Definition t_normalize (t : term) : term := mkTerm (t_coef t) (vs_normalize (t_vars t)).
Definition t_mul (a b : term) : option term :=
  let* v := vs_mul (t_vars a) (t_vars b) in Some (mkTerm (fmul (t_coef a) (t_coef b)) v).

(** expr.rs:259-263 default, 297-311 constructors, 330-332 invalid *)
Definition e_default : expr := [t_const f0].
Definition e_const (c : K) : expr := [t_const c].
Definition e_linear (c : K) (x : nat) : expr := [t_linear c x].
Definition e_quad (c : K) (x y : nat) : expr := [t_quad c x y].
Definition e_custom (c : K) (g : nat) (ins : list nat) : expr := [mkTerm c (VCustom g ins)].
Definition e_invalid : expr := [].

(** expr.rs:278-294 compress_identical_terms.  [merge_adjacent cur r] is the
    loop 280-289 with [cur] the term at position i; simplification: the vector
    is rebuilt instead of being updated in place. *)
Fixpoint merge_adjacent (cur : term) (r : list term) : list term :=
  match r with
  | [] => [cur]
  | t :: r' =>
    if vs_eqb (t_vars cur) (t_vars t)
    then merge_adjacent (mkTerm (fadd (t_coef cur) (t_coef t)) (t_vars cur)) r'
    else cur :: merge_adjacent t r'
  end.
Definition non_zero_term (t : term) : bool := negb (feqb (t_coef t) f0).
Definition or_default (l : list term) : expr := match l with [] => e_default | _ => l end.
Definition compress (ts : list term) : expr :=
  or_default (filter non_zero_term
    (match ts with [] => [] | t :: r => merge_adjacent t r end)).
(** expr.rs:312-319 from_terms *)
Definition e_from_terms (ts : list term) : expr :=
  compress (sort_by term_cmp (map t_normalize ts)).
(** expr.rs:327 the check of from_terms_sorted: strictly increasing *)
Fixpoint increasing (l : list term) : bool :=
  match l with
  | [] => true
  | a :: r => match r with [] => true | b :: _ => vs_ltb (t_vars a) (t_vars b) && increasing r end
  end.
(** expr.rs:320-329 from_terms_sorted *)
Definition e_from_terms_sorted (ts : list term) : option expr :=
  let ts := or_default ts in
  let* _ := guard (forallb (fun t => vs_is_normalized (t_vars t)) ts) in
  let* _ := guard (increasing ts) in
  Some ts.
(** expr.rs:333-343 get_vars *)
Definition e_vars (e : expr) : list nat := flat_map (fun t => vs_vars (t_vars t)) e.

(** expr.rs:380-396 degree *)
Fixpoint e_degree_from (has_linear : bool) (e : expr) : option nat :=
  match e with
  | [] => Some (if has_linear then 1 else 0)
  | t :: r =>
    match t_vars t with
    | VConst => e_degree_from has_linear r
    | VLin _ => e_degree_from true r
    | VQuad _ _ => Some 2
    | VCustom _ _ => Some 2
    | VRandom _ => None
    end
  end.
Definition e_degree (e : expr) : option nat := e_degree_from false e.
(** expr.rs:397-409 count_of_degrees *)
Fixpoint e_count (e : expr) : option (nat * nat * nat) :=
  match e with
  | [] => Some (0, 0, 0)
  | t :: r =>
    let* c := e_count r in
    let '(a, b, q) := c in
    match t_vars t with
    | VConst => Some (S a, b, q)
    | VLin _ => Some (a, S b, q)
    | VQuad _ _ => Some (a, b, S q)
    | VCustom _ _ => Some (a, b, S q)
    | VRandom _ => None
    end
  end.
(** expr.rs:410-416 constant_value *)
Definition e_constant_value (e : expr) : option K :=
  match e with
  | [t] => match t_vars t with VConst => Some (t_coef t) | _ => None end
  | _ => None
  end.
(** expr.rs:417-429 mul_constant *)
Definition e_mul_constant (e : expr) (v : K) : option expr :=
  if feqb v f0 then Some e_default
  else e_from_terms_sorted (map (fun t => mkTerm (fmul (t_coef t) v) (t_vars t)) e).

(** expr.rs:435-445 LinCombTerm and LinComb *)
Record lin_comb := mkLC { lc_terms : list (nat * K); lc_const : K }.
(** expr.rs:473-485 from_kx_plus_b *)
Definition lc_kx_plus_b (x : nat) (k b : K) : lin_comb :=
  if (x =? 0) || feqb k f0 then mkLC [] b else mkLC [(x, k)] b.
(** expr.rs:457-472 get_vars and replace_vars; the replacement may index a
    vector, so it can fail *)
Definition lc_vars (lc : lin_comb) : list nat := map fst (lc_terms lc).
Definition lc_replace (f : nat -> option nat) (lc : lin_comb) : option lin_comb :=
  let* ts := omap (fun t : nat * K => let* v := f (fst t) in Some (v, snd t)) (lc_terms lc) in
  Some (mkLC ts (lc_const lc)).
End Expr.

Arguments mkTerm {K}. Arguments t_coef {K}. Arguments t_vars {K}.
Arguments t_const {K}. Arguments t_linear {K}. Arguments t_quad {K}. Arguments t_random {K}.
Arguments t_normalize {K}. Arguments t_mul {K}.
Arguments term_eqb {K}. Arguments expr_eqb {K}.
Arguments e_default {K}. Arguments e_const {K}. Arguments e_linear {K}. Arguments e_quad {K}.
Arguments e_custom {K}. Arguments e_invalid {K}.
Arguments merge_adjacent {K}. Arguments compress {K}. Arguments or_default {K}.
Arguments non_zero_term {K}. Arguments increasing {K}.
Arguments e_from_terms {K}. Arguments e_from_terms_sorted {K}.
Arguments e_vars {K}. Arguments e_degree {K}. Arguments e_degree_from {K}. Arguments e_count {K}.
Arguments e_constant_value {K}. Arguments e_mul_constant {K}.
Arguments mkLC {K}. Arguments lc_terms {K}. Arguments lc_const {K}. Arguments lc_kx_plus_b {K}.
Arguments lc_vars {K}. Arguments lc_replace {K}.
Arguments term_cmp {K}. Arguments expr_cmp {K}.
