(** What is assumed about hints and coefficients in the statements about the
    circuit compiler. *)
From Coq Require Import List Bool Arith.
Import ListNotations.
From Verif Require Import Base.Array Base.Field Model.Expr Model.Ir Spec.CircuitMeaning.
From Verif Require Model.Layered.

Section Spec.
Variable K : field.
Local Open Scope fld_scope.
(** the compile-time value of an operation on two constants *)
Variable un_eval : un_op -> K -> K -> option K.

(** a constant coefficient has its own value *)
Definition reads_constants (cv : Layered.coef K -> K) : Prop := forall c, cv (Layered.Constant c) = c.

(** A dishonest prover may choose the result of a hint freely; then [H] is
    everywhere true.  Only the values the compiler folds must be among those the
    hint allows. *)
Definition folding_allowed (H : hint_id -> list K -> list K -> Prop) : Prop :=
  (forall op a b r, un_eval op a b = Some r -> H (HidBin op) [a; b] [r]) /\
  (forall a b c, H HidSelect [a; b; c] [if feqb a 0 then c else b]).

(** The honest hints compute what the compiler folds; the division hint divides,
    and answers something (in the code: zero) for a zero divisor. *)
Definition honest_hints (H : hint_id -> list K -> list K -> Prop) : Prop :=
  (forall op a b r q, un_eval op a b = Some r -> H (HidBin op) [a; b] [q] -> q = r) /\
  (forall a b c q, H HidSelect [a; b; c] [q] -> q = if feqb a 0 then c else b) /\
  (forall a b, b <> 0 -> H (HidBin UDiv) [a; b] [a / b]) /\
  (exists r, H (HidBin UDiv) [1; 0] [r]).

(** no circuit uses and, or, xor *)
Definition is_boolean_op (i : src_insn K) : bool := match i with SBool _ _ _ => true | _ => false end.
Definition without_boolean_ops (rc : root_circuit (src_insn K) src_con) : Prop :=
  forall id c, find_circuit id (rc_circuits rc) = Some c -> Forall (fun i => is_boolean_op i = false) (c_insns c).
End Spec.
Arguments reads_constants {K}. Arguments folding_allowed {K}. Arguments honest_hints {K}. Arguments without_boolean_ops {K}.
