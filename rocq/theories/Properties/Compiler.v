(** The circuit compiler (C78, C79). *)
From Coq Require Import List Bool Arith ZArith.
From Verif Require Import Base.Array Base.Field Base.SmallField Model.Expr Model.Ir Model.Normalize Spec.CircuitMeaning Spec.CompilerSpec.
From Verif.Proofs Require NormalizeRoot CompilerCases.
From Verif Require Model.Layered.
Import ListNotations.

(** ** C78: the first pass weakens no circuit *)

(** The claim is false.  The source circuit computes or(x, 0); it accepts only
    x = 0 and x = 1.  The compiled circuit accepts x = 2, with no hint involved. *)
Theorem C78_refuted : exists (K : field) kcmp un_eval cv gate rc rc' ins outs,
  reads_constants (K := K) cv /\ process_root K kcmp un_eval rc = Some rc' /\
  (forall H, hn_root_realises K cv gate H rc' ins outs) /\
  (forall H outs', ~ src_root_realises K cv gate H rc ins outs').
Proof. exact CompilerCases.or_refuted. Qed.
Print Assumptions C78_refuted.

(** What holds: circuits without and, or, xor.  Every pair of inputs and outputs
    the compiled circuit realises under a relation on hints, for instance with
    hints chosen freely, is one the source circuit realises. *)
Theorem C78_sound_partial : forall (K : field) kcmp un_eval cv gate rc rc' H ins outs,
  reads_constants (K := K) cv -> process_root K kcmp un_eval rc = Some rc' ->
  without_boolean_ops rc -> folding_allowed un_eval H ->
  hn_root_realises K cv gate H rc' ins outs -> src_root_realises K cv gate H rc ins outs.
Proof.
  exact (fun K kcmp un_eval cv gate rc rc' H ins outs Cv E W F R =>
    proj1 (NormalizeRoot.process_root_ok K kcmp un_eval gate cv Cv rc rc' E) H ins outs W F R).
Qed.
Print Assumptions C78_sound_partial.

(** ** C79: the first pass loses no honest run *)
Theorem C79_complete : forall (K : field) kcmp un_eval cv gate rc rc' H ins outs,
  reads_constants (K := K) cv -> process_root K kcmp un_eval rc = Some rc' ->
  honest_hints un_eval H ->
  src_root_realises K cv gate H rc ins outs -> hn_root_realises K cv gate H rc' ins outs.
Proof.
  exact (fun K kcmp un_eval cv gate rc rc' H ins outs Cv E F R =>
    proj2 (NormalizeRoot.process_root_ok K kcmp un_eval gate cv Cv rc rc' E) H ins outs F R).
Qed.
Print Assumptions C79_complete.

(** A circuit with a division, a zero test, a bit decomposition, an unconstrained
    division and a non-zero constraint compiles, and the honest hints run it. *)
Example C79_met : reads_constants CompilerCases.cv7 /\
  (exists rc', process_root F7 CompilerCases.cmp7 CompilerCases.eval7 CompilerCases.rich_circuit = Some rc') /\
  honest_hints CompilerCases.eval7 CompilerCases.H7 /\
  src_root_realises F7 CompilerCases.cv7 CompilerCases.gate7 CompilerCases.H7 CompilerCases.rich_circuit [n7 2%Z; n7 3%Z] [n7 3%Z; n7 0%Z; n7 0%Z; n7 1%Z; n7 3%Z].
Proof. exact (conj CompilerCases.cv7_const (conj CompilerCases.rich_compiled (conj CompilerCases.H7_honest CompilerCases.rich_runs))). Qed.
(** The compiled circuit runs with these inputs and outputs, also when hints are
    free; so the hypotheses of [C78_sound_partial] are met. *)
Example C78_met : without_boolean_ops CompilerCases.rich_circuit /\ folding_allowed CompilerCases.eval7 (fun _ _ _ => True) /\
  (exists rc', process_root F7 CompilerCases.cmp7 CompilerCases.eval7 CompilerCases.rich_circuit = Some rc' /\
   hn_root_realises F7 CompilerCases.cv7 CompilerCases.gate7 (fun _ _ _ => True) rc' [n7 2%Z; n7 3%Z] [n7 3%Z; n7 0%Z; n7 0%Z; n7 1%Z; n7 3%Z]).
Proof. exact (conj CompilerCases.rich_without (conj CompilerCases.All_folding CompilerCases.rich_free)). Qed.
