(** The circuit representations the compiler goes through
    (compiler/expander_compiler/src/circuit/ir): [source] (what the frontend
    produces), [hint_normalized] (only hints and arithmetic), [hint_less] (the
    hints have become inputs).  The instruction sets are nested, and the types
    below say so: a hint-normalised instruction is a hint-less one or a hint, a
    source instruction is one of those or one of the richer forms.
    Simplifications: a circuit id, a gate type, a variable is a natural number
    (usize); a hint id is symbolic; the map of sub-circuits is an association
    list. *)
From Coq Require Import List Bool Arith NArith.
Import ListNotations.
From Verif Require Import Base.Array Base.Field Model.Expr.
From Verif Require Model.Layered.

(** source/mod.rs:67-71 BoolBinOpType *)
Inductive bool_op := BXor | BOr | BAnd.
(** source/mod.rs:73-92 UnconstrainedBinOpType *)
Inductive un_op := UDiv | UPow | UIntDiv | UMod | UShiftL | UShiftR | ULesserEq | UGreaterEq | ULesser
  | UGreater | UEq | UNotEq | UBoolOr | UBoolAnd | UBitOr | UBitAnd | UBitXor.
(** hints/builtin.rs BuiltinHintIds, and the ids of user hints.  The hint of
    UnconstrainedBinOpType::Div is BuiltinHintIds::Div as well
    (hint_normalize.rs:219). *)
Inductive hint_id := HidBin (op : un_op) | HidSelect | HidToBinary | HidUser (n : N).

Section Ir.
Variable K : field.

(** hint_less/mod.rs:17-31 Instruction *)
Inductive hl_insn :=
| HLin (lc : lin_comb K)
| HMul (xs : list nat)
| HConst (c : Layered.coef K)
| HCall (id : nat) (ins : list nat) (n : nat)
| HCustom (g : nat) (ins : list nat).

(** hint_normalized/mod.rs:20-39 Instruction *)
Inductive hn_insn := NPlain (i : hl_insn) | NHint (h : hint_id) (ins : list nat) (n : nat).

(** source/mod.rs:21-65 Instruction.  [SPlain] covers LinComb, Mul,
    ConstantLike, SubCircuitCall, CustomGate and Hint. *)
Inductive src_insn :=
| SPlain (i : hn_insn)
| SDiv (x y : nat) (checked : bool)
| SBool (x y : nat) (op : bool_op)
| SIsZero (x : nat)
| SCommit (xs : list nat)
| SUnBin (x y : nat) (op : un_op)
| SUnSelect (c t f : nat)
| SToBinary (x n : nat).

(** source/mod.rs:94-105 Constraint; the other representations only have
    "this variable is zero", a variable *)
Inductive con_type := CZero | CNonZero | CBool.
Definition src_con : Type := con_type * nat.

(** common/mod.rs Circuit and RootCircuit *)
Record circuit (I C : Type) := mkCircuit {
  c_insns : list I; c_cons : list C; c_outs : list nat; c_inputs : nat }.
Record root_circuit (I C : Type) := mkRoot {
  rc_npub : nat; rc_zeroes : nat; rc_circuits : list (nat * circuit I C) }.

(** Instruction::num_outputs of each representation (hint_less/mod.rs:33-110,
    hint_normalized/mod.rs:41-130, source/mod.rs:128-271) *)
Definition hl_outputs (i : hl_insn) : nat := match i with HCall _ _ n => n | _ => 1 end.
Definition hn_outputs (i : hn_insn) : nat :=
  match i with NPlain i => hl_outputs i | NHint _ _ n => n end.
Definition src_outputs (i : src_insn) : nat :=
  match i with SPlain i => hn_outputs i | SToBinary _ n => n | _ => 1 end.

(** Instruction::replace_vars of each representation; the replacement indexes a
    vector, so it can fail *)
Definition hl_replace (f : nat -> option nat) (i : hl_insn) : option hl_insn :=
  match i with
  | HLin lc => let* lc := lc_replace f lc in Some (HLin lc)
  | HMul xs => let* xs := omap f xs in Some (HMul xs)
  | HConst c => Some (HConst c)
  | HCall id ins n => let* ins := omap f ins in Some (HCall id ins n)
  | HCustom g ins => let* ins := omap f ins in Some (HCustom g ins)
  end.
Definition hn_replace (f : nat -> option nat) (i : hn_insn) : option hn_insn :=
  match i with
  | NPlain i => let* i := hl_replace f i in Some (NPlain i)
  | NHint h ins n => let* ins := omap f ins in Some (NHint h ins n)
  end.
Definition src_replace (f : nat -> option nat) (i : src_insn) : option src_insn :=
  match i with
  | SPlain i => let* i := hn_replace f i in Some (SPlain i)
  | SDiv x y ch => let* x := f x in let* y := f y in Some (SDiv x y ch)
  | SBool x y op => let* x := f x in let* y := f y in Some (SBool x y op)
  | SIsZero x => let* x := f x in Some (SIsZero x)
  | SCommit xs => let* xs := omap f xs in Some (SCommit xs)
  | SUnBin x y op => let* x := f x in let* y := f y in Some (SUnBin x y op)
  | SUnSelect c a b => let* c := f c in let* a := f a in let* b := f b in Some (SUnSelect c a b)
  | SToBinary x n => let* x := f x in Some (SToBinary x n)
  end.

(** the map [circuits] of a root circuit *)
Fixpoint find_circuit {X} (id : nat) (l : list (nat * X)) : option X :=
  match l with
  | [] => None
  | (k, c) :: r => if Nat.eqb k id then Some c else find_circuit id r
  end.
End Ir.

Arguments HLin {K}. Arguments HMul {K}. Arguments HConst {K}. Arguments HCall {K}. Arguments HCustom {K}.
Arguments NPlain {K}. Arguments NHint {K}.
Arguments SPlain {K}. Arguments SDiv {K}. Arguments SBool {K}. Arguments SIsZero {K}. Arguments SCommit {K}.
Arguments SUnBin {K}. Arguments SUnSelect {K}. Arguments SToBinary {K}.
Arguments mkCircuit {I C}. Arguments c_insns {I C}. Arguments c_cons {I C}. Arguments c_outs {I C}. Arguments c_inputs {I C}.
Arguments mkRoot {I C}. Arguments rc_npub {I C}. Arguments rc_zeroes {I C}. Arguments rc_circuits {I C}.
Arguments hl_outputs {K}. Arguments hn_outputs {K}. Arguments src_outputs {K}.
Arguments hl_replace {K}. Arguments hn_replace {K}. Arguments src_replace {K}.
