(** What a circuit of the compiler's intermediate representations means,
    independently of how the compiler transforms it: which pairs (inputs,
    outputs) some assignment of its variables realises while meeting all its
    constraints.  A hint may produce any value the relation [H] allows, so with
    [H] everywhere true this is what a dishonest prover can reach, and with [H]
    the graph of the hint functions it is what the honest one computes.
    This follows [eval_unsafe_sub] (common/mod.rs:305-342: variable 0 is zero,
    then the inputs, then the outputs of the instructions in order) and
    [Instruction::eval_unsafe] (hint_less/mod.rs:127-160,
    hint_normalized/mod.rs:169-205, source/mod.rs:319-403); a run that errs or
    panics, or whose condition is false, realises nothing.
    [cv] gives the value of a constant-like coefficient; like
    [Coef::get_value_unsafe] it gives every random coefficient the same value.
    [gate] is the function of a custom gate. *)
From Coq Require Import List Bool Arith.
Import ListNotations.
From Verif Require Import Base.Array Base.Field Model.Expr Model.Ir.
From Verif Require Model.Layered.

Section Meaning.
Variable K : field.
Local Open Scope fld_scope.
Variable cv : Layered.coef K -> K.
Variable gate : nat -> list K -> K.
Variable H : hint_id -> list K -> list K -> Prop.
(** the pairs (inputs, outputs) of the sub-circuits *)
Definition calls := nat -> list K -> list K -> Prop.

Definition at_all (vals : list K) (xs : list nat) : option (list K) := omap (nth_error vals) xs.
Definition fprod (l : list K) : K := fold_right fmul 1 l.
Definition lc_value (vals : list K) (lc : lin_comb K) : option K :=
  let* vs := omap (fun t : nat * K => let* v := nth_error vals (fst t) in Some (v * snd t)) (lc_terms lc) in
  Some (lc_const lc + fsum vs).
Definition is_bit (x : K) : Prop := x = 0 \/ x = 1.
Definition two : K := 1 + 1.
(** the number whose little-endian digits are [bits] *)
Definition bits_value (bits : list K) : K := fold_right (fun b r => b + two * r) 0 bits.

Definition hl_step (call : calls) (vals : list K) (i : hl_insn K) (outs : list K) : Prop :=
  match i with
  | HLin lc => exists v, lc_value vals lc = Some v /\ outs = [v]
  | HMul xs => exists vs, at_all vals xs = Some vs /\ outs = [fprod vs]
  | HConst c => outs = [cv c]
  | HCall id ins n => exists vs, at_all vals ins = Some vs /\ call id vs outs /\ length outs = n
  | HCustom g ins => exists vs, at_all vals ins = Some vs /\ outs = [gate g vs]
  end.
Definition hn_step (call : calls) (vals : list K) (i : hn_insn K) (outs : list K) : Prop :=
  match i with
  | NPlain i => hl_step call vals i outs
  | NHint h ins n => exists vs, at_all vals ins = Some vs /\ H h vs outs /\ length outs = n
  end.
Definition src_step (call : calls) (vals : list K) (i : src_insn K) (outs : list K) : Prop :=
  match i with
  | SPlain i => hn_step call vals i outs
  | SDiv x y checked => exists a b r, nth_error vals x = Some a /\ nth_error vals y = Some b /\ outs = [r] /\
      ((b <> 0 /\ r = a / b) \/ (b = 0 /\ a = 0 /\ checked = false /\ H (HidBin UDiv) [a; b] [r]))
  | SBool x y op => exists a b, nth_error vals x = Some a /\ nth_error vals y = Some b /\ is_bit a /\ is_bit b /\
      outs = [match op with BXor => a + b - two * a * b | BOr => a + b - a * b | BAnd => a * b end]
  | SIsZero x => exists a, nth_error vals x = Some a /\ outs = [if feq_dec a 0 then 1 else 0]
  | SCommit xs => outs = [cv Layered.Random]
  | SUnBin x y op => exists a b r, nth_error vals x = Some a /\ nth_error vals y = Some b /\ outs = [r] /\
      H (HidBin op) [a; b] [r]
  | SUnSelect c t f => exists a b d r, nth_error vals c = Some a /\ nth_error vals t = Some b /\
      nth_error vals f = Some d /\ outs = [r] /\ H HidSelect [a; b; d] [r]
  | SToBinary x n => exists a, nth_error vals x = Some a /\ length outs = n /\ H HidToBinary [a] outs /\
      Forall is_bit outs /\ bits_value outs = a
  end.
Definition src_con_holds (vals : list K) (c : src_con) : Prop :=
  exists v, nth_error vals (snd c) = Some v /\
    match fst c with CZero => v = 0 | CNonZero => v <> 0 | CBool => is_bit v end.
Definition zero_con_holds (vals : list K) (x : nat) : Prop := nth_error vals x = Some 0.

Section Circuits.
Context {I C : Type}.
Variable step : calls -> list K -> I -> list K -> Prop.
Variable holds : list K -> C -> Prop.
Inductive runs (call : calls) : list K -> list I -> list K -> Prop :=
| runs_nil v : runs call v [] v
| runs_cons v i outs r w : step call v i outs -> runs call (v ++ outs) r w -> runs call v (i :: r) w.

Definition realises (call : calls) (c : circuit I C) (ins outs : list K) : Prop :=
  length ins = c_inputs c /\
  exists w, runs call (0 :: ins) (c_insns c) w /\ Forall (holds w) (c_cons c) /\ at_all w (c_outs c) = Some outs.

(** the sub-circuits of a root circuit, calls nested at most [d] deep *)
Fixpoint sub_realises (rc : root_circuit I C) (d : nat) (id : nat) (ins outs : list K) : Prop :=
  match d with
  | O => False
  | S d => exists c, find_circuit id (rc_circuits rc) = Some c /\ realises (sub_realises rc d) c ins outs
  end.
(** eval_unsafe_with_errors (common/mod.rs:285-296): circuit 0 is run; the first
    outputs must be zero, the others are the result *)
Definition root_realises (rc : root_circuit I C) (ins outs : list K) : Prop :=
  exists d all, sub_realises rc d 0 ins all /\
    all = repeat 0 (rc_zeroes rc) ++ outs.
End Circuits.

Definition src_realises := @realises (src_insn K) src_con src_step src_con_holds.
Definition hn_realises := @realises (hn_insn K) nat hn_step zero_con_holds.
Definition hl_realises := @realises (hl_insn K) nat hl_step zero_con_holds.
Definition src_root_realises := @root_realises (src_insn K) src_con src_step src_con_holds.
Definition hn_root_realises := @root_realises (hn_insn K) nat hn_step zero_con_holds.
Definition hl_root_realises := @root_realises (hl_insn K) nat hl_step zero_con_holds.
End Meaning.
Arguments at_all {K}. Arguments lc_value {K}. Arguments fprod {K}. Arguments is_bit {K}. Arguments bits_value {K}.
Arguments runs_nil {K I step}. Arguments runs_cons {K I step}.
