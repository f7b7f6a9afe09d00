(** Model of the circuit builder API used by the JSTprove gadgets:
    /repo/compiler/expander_compiler/src/frontend/builder.rs:157-604 and the
    builtin hints /repo/compiler/expander_compiler/src/hints/builtin.rs:176-266.

    A gadget is a program ([prog]) over field values.  A [Variable] is modelled
    by the canonical residue (a [Z] in [0, p)) it takes in one assignment;
    [add]/[sub]/[mul] are evaluated on the spot.  What the prover is free to
    choose (hint outputs) and what the verifier checks (assertions, lookups) are
    explicit constructors.

    Simplifications: constant folding, common-subexpression handling and the
    sub-circuit call mechanism of the builder do not change values and are not
    modelled; a constant assertion that fails makes the Rust builder panic at
    circuit-construction time, here it is an unsatisfiable assertion. *)
From Coq Require Import ZArith List Bool Lia.
Import ListNotations.
Local Open Scope Z_scope.

(** Hints: builtin ones (builtin.rs:24-50) and the registered ones
    (circuit_functions/hints/mod.rs:121-175); only the ones used by the
    modelled gadgets are listed, [HCustom] stands for the others. *)
Inductive hintk : Type :=
| HIdentity | HIntDiv | HMod | HShiftR | HBitAnd
| HLesserEq | HGreaterEq | HLesser | HGreater | HDiv | HNotEq
| HToBinary | HRangeProof
| HCustom (key : nat).

(** Lookup tables: the shared range table ([LogUpRangeProofTable]) and function
    tables ([LogUpSingleKeyTable]), identified by a number. *)
Inductive tableid : Type := TRange | TFun (n : nat).

Inductive prog (A : Type) : Type :=
| Ret (a : A)
| Fail (code : nat)                                  (** [Err(..)] or panic while building *)
| Hint (h : hintk) (ins : list Z) (n : nat) (k : list Z -> prog A)
| AssertEq (x y : Z) (k : prog A)
| Lookup (t : tableid) (row : list Z) (k : prog A).
Arguments Ret {A}. Arguments Fail {A}. Arguments Hint {A}.
Arguments AssertEq {A}. Arguments Lookup {A}.

Fixpoint bind {A B} (m : prog A) (f : A -> prog B) : prog B :=
  match m with
  | Ret a => f a
  | Fail c => Fail c
  | Hint h ins n k => Hint h ins n (fun outs => bind (k outs) f)
  | AssertEq x y k => AssertEq x y (bind k f)
  | Lookup t row k => Lookup t row (bind k f)
  end.

Declare Scope prog_scope.
Delimit Scope prog_scope with prog.
Notation "'let*' x ':=' m 'in' f" := (bind m (fun x => f))
  (at level 200, x binder, m at level 100, f at level 200, right associativity).

(** Iterating over a slice, [for x in xs { ... }?] *)
Fixpoint mapM {A B} (f : A -> prog B) (l : list A) : prog (list B) :=
  match l with
  | [] => Ret []
  | a :: r => let* b := f a in let* bs := mapM f r in Ret (b :: bs)
  end.

Fixpoint forM {A} (f : A -> prog unit) (l : list A) : prog unit :=
  match l with
  | [] => Ret tt
  | a :: r => let* _ := f a in forM f r
  end.

(** What acceptance means: there is an assignment of the hint outputs (any
    field elements whatsoever: the prover is adversarial) that satisfies every
    assertion and puts every looked-up row in its table.  [T] gives the
    content of the tables. *)
Fixpoint accepts {A} (p : Z) (T : tableid -> list Z -> Prop) (m : prog A) (a : A) : Prop :=
  match m with
  | Ret b => b = a
  | Fail _ => False
  | Hint _ _ n k =>
      exists outs, length outs = n /\ Forall (fun v => 0 <= v < p) outs /\ accepts p T (k outs) a
  | AssertEq x y k => x = y /\ accepts p T k a
  | Lookup t row k => T t row /\ accepts p T k a
  end.

(** Witness generation: run with the hint functions [H] of the code; [None]
    if a hint errs or a constraint/lookup would not be satisfied. *)
Fixpoint run {A} (H : hintk -> list Z -> nat -> option (list Z))
    (Tb : tableid -> list Z -> bool) (m : prog A) : option A :=
  match m with
  | Ret a => Some a
  | Fail _ => None
  | Hint h ins n k =>
      match H h ins n with
      | Some outs => if (length outs =? n)%nat then run H Tb (k outs) else None
      | None => None
      end
  | AssertEq x y k => if x =? y then run H Tb k else None
  | Lookup t row k => if Tb t row then run H Tb k else None
  end.

Section Ops.
Variable p : Z.

(** Field operations of the builder on values (builder.rs:158-250). *)
Definition const (x : Z) : Z := x mod p.                       (** builder.rs:454-456 constant *)
Definition add (x y : Z) : Z := (x + y) mod p.                 (** builder.rs:158-184 *)
Definition sub (x y : Z) : Z := (x - y) mod p.                 (** builder.rs:186-214 *)
Definition neg (x : Z) : Z := (- x) mod p.                     (** builder.rs:216-231 *)
Definition mul (x y : Z) : Z := (x * y) mod p.                 (** builder.rs:233-250 *)

(** assert_is_equal (builder API): asserts [x - y] is zero *)
Definition assert_eq (x y : Z) : prog unit := AssertEq x y (Ret tt).
(** assert_is_zero, builder.rs:387-399 *)
Definition assert_zero (x : Z) : prog unit := AssertEq x 0 (Ret tt).
(** assert_is_bool, builder.rs:415-427; the compiler lowers the Bool
    constraint to x * (x - 1) = 0 *)
Definition assert_bool (x : Z) : prog unit := AssertEq (mul x (sub x 1)) 0 (Ret tt).

(** A hint with one output, builder.rs:435-450 and 536-605. *)
Definition hint1 (h : hintk) (ins : list Z) : prog Z :=
  Hint h ins 1 (fun outs => Ret (hd 0 outs)).
Definition hintn (h : hintk) (ins : list Z) (n : nat) : prog (list Z) :=
  Hint h ins n (fun outs => Ret outs).
Definition lookup (t : tableid) (row : list Z) : prog unit := Lookup t row (Ret tt).

(** The unconstrained operations are hints, builder.rs:536-605. *)
Definition unconstrained_int_div x y := hint1 HIntDiv [x; y].
Definition unconstrained_mod x y := hint1 HMod [x; y].
Definition unconstrained_greater_eq x y := hint1 HGreaterEq [x; y].
Definition unconstrained_lesser_eq x y := hint1 HLesserEq [x; y].
Definition unconstrained_greater x y := hint1 HGreater [x; y].
Definition unconstrained_lesser x y := hint1 HLesser [x; y].
Definition unconstrained_bit_and x y := hint1 HBitAnd [x; y].
Definition unconstrained_shift_r x y := hint1 HShiftR [x; y].
(** unconstrained_add / unconstrained_mul, builder.rs:568-587: computed, then
    passed through an identity hint *)
Definition unconstrained_add x y := hint1 HIdentity [add x y].
Definition unconstrained_mul x y := hint1 HIdentity [mul x y].

(** Honest hint functions: impl_builtin_hint, builtin.rs:176-249;
    rangeproof_hint, logup.rs:520-550.  Comparison is by canonical value, which
    holds for the BN254, Goldilocks and M31 scalars. *)
Definition b2z (b : bool) : Z := if b then 1 else 0.

Fixpoint bits_of (x : Z) (n : nat) : list Z :=
  match n with O => [] | S m => x mod 2 :: bits_of (x / 2) m end.

Fixpoint digits_of (B x : Z) (n : nat) : list Z :=
  match n with O => [] | S m => x mod B :: digits_of B (x / B) m end.

Definition honest_hint (h : hintk) (ins : list Z) (n : nat) : option (list Z) :=
  match h, ins with
  | HIdentity, _ => Some (firstn n ins)
  | HIntDiv, [x; y] => Some [if y =? 0 then 0 else x / y]
  | HMod, [x; y] => Some [if y =? 0 then 0 else x mod y]
  | HShiftR, [x; y] => Some [x / 2 ^ y]          (* y <= p/2 and y < 256 in all uses *)
  | HBitAnd, [x; y] => Some [Z.land x y]
  | HLesserEq, [x; y] => Some [b2z (x <=? y)]
  | HGreaterEq, [x; y] => Some [b2z (y <=? x)]
  | HLesser, [x; y] => Some [b2z (x <? y)]
  | HGreater, [x; y] => Some [b2z (y <? x)]
  | HNotEq, [x; y] => Some [b2z (negb (x =? y))]
  | HToBinary, [x] => if x <? 2 ^ Z.of_nat n then Some (bits_of x n) else None
  | HRangeProof, nb :: m :: a :: _ =>
      if m =? 0 then None
      else if Z.of_nat n <? nb / m then None
      else Some (digits_of (2 ^ m) a (Z.to_nat (nb / m)) ++ repeat 0 (n - Z.to_nat (nb / m)))
  | _, _ => None
  end.

End Ops.
