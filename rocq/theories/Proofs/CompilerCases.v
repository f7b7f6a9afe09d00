(** Concrete circuits for the compiler properties, over the field with seven
    elements. *)
From Coq Require Import List Bool Arith ZArith Lia Ring Field.
Import ListNotations.
From Verif Require Import Base.Array Base.Field Base.SmallField Model.Expr Model.Ir Model.Normalize Spec.CircuitMeaning Spec.CompilerSpec.
From Verif Require Import Proofs.NormalizeCircuit Proofs.NormalizeRoot.
From Verif Require Model.Layered.

(** a hint-normalised circuit without hints and calls can be run *)
Section Run.
Variable K : field.
Local Open Scope fld_scope.
Variable cv : Layered.coef K -> K.
Variable gate : nat -> list K -> K.
Definition exec1 (vals : list K) (i : hn_insn K) : option (list K) :=
  match i with
  | NPlain (HLin lc) => let* v := lc_value vals lc in Some [v]
  | NPlain (HMul xs) => let* vs := at_all vals xs in Some [fprod vs]
  | NPlain (HConst c) => Some [cv c]
  | _ => None
  end.
Fixpoint exec (vals : list K) (l : list (hn_insn K)) : option (list K) :=
  match l with [] => Some vals | i :: r => let* o := exec1 vals i in exec (vals ++ o) r end.
Definition exec_circuit (c : circuit (hn_insn K) nat) (ins : list K) : option (list K) :=
  if (length ins =? c_inputs c)%nat then
    let* w := exec (0 :: ins) (c_insns c) in
    if forallb (fun x => match nth_error w x with Some v => feqb v 0 | None => false end) (c_cons c) then at_all w (c_outs c) else None
  else None.
Lemma exec_runs H call l : forall vals w, exec vals l = Some w -> runs K (hn_step K cv gate H) call vals l w.
Proof.
  induction l as [|i l IH]; intros vals w E; [injection E as <-; constructor|]. cbn [exec] in E.
  destruct (exec1 vals i) as [o|] eqn:E1; [|discriminate]. cbn [obind] in E. econstructor; [|apply IH, E].
  destruct i as [[lc|xs|c| |]|]; cbn in E1; try discriminate.
  - destruct (lc_value vals lc) eqn:E2; [|discriminate]. injection E1 as <-. exists c. auto.
  - destruct (at_all vals xs) eqn:E2; [|discriminate]. injection E1 as <-. exists l0. auto.
  - injection E1 as <-. reflexivity.
Qed.
Lemma exec_realises H call c ins outs : exec_circuit c ins = Some outs -> hn_realises K cv gate H call c ins outs.
Proof.
  unfold exec_circuit. destruct (length ins =? c_inputs c)%nat eqn:L; [|discriminate]. apply Nat.eqb_eq in L. intros E.
  destruct (exec (0 :: ins) (c_insns c)) as [w|] eqn:W; [|discriminate]. cbn [obind] in E.
  destruct (forallb _ (c_cons c)) eqn:F; [|discriminate]. split; [assumption|]. exists w. split; [now apply exec_runs|]. split; [|assumption].
  rewrite forallb_forall in F. apply Forall_forall. intros x Hx. specialize (F x Hx). unfold zero_con_holds.
  destruct (nth_error w x); [|discriminate]. apply feqb_eq in F. now subst.
Qed.
End Run.

Definition cmp7 (a b : F7) : comparison := Z.compare (fval 7 a) (fval 7 b).
Definition eval7 (op : un_op) (a b : F7) : option F7 :=
  match op with UDiv => if feqb b f0 then None else Some (fdiv a b) | _ => None end.
Definition cv7 (c : Layered.coef F7) : F7 := match c with Layered.Constant c => c | _ => n7 3 end.
Definition gate7 (g : nat) (l : list F7) : F7 := f0.
(** the honest hints *)
Definition H7 (h : hint_id) (ins outs : list F7) : Prop :=
  match h, ins with
  | HidBin UDiv, [a; b] => outs = [if feqb b f0 then f0 else fdiv a b]
  | HidSelect, [a; b; c] => outs = [if feqb a f0 then c else b]
  | HidToBinary, [a] => outs = map (fun i => n7 (fval 7 a / 2 ^ Z.of_nat i mod 2)) (seq 0 (length outs))
  | _, _ => False
  end.
Lemma H7_honest : honest_hints eval7 H7.
Proof.
  split; [|split; [|split]].
  - intros [] a b r q; unfold eval7, H7; try (intros; contradiction). destruct (feqb b f0); intros E Hq; [discriminate|]. injection E as <-. now injection Hq as ->.
  - intros a b c q Hq. unfold H7 in Hq. now injection Hq as ->.
  - intros a b N. unfold H7. destruct (feqb b f0) eqn:E; [|reflexivity]. apply feqb_eq in E. contradiction.
  - exists (if feqb (f0 : F7) f0 then f0 else fdiv f1 f0). reflexivity.
Qed.
Lemma All_folding : folding_allowed eval7 (fun _ _ _ => True). Proof. split; auto. Qed.
Lemma cv7_const : reads_constants cv7. Proof. intros c. reflexivity. Qed.

(** or(x, 0): the boolean check of x disappears *)
Definition or_circuit : root_circuit (src_insn F7) src_con :=
  mkRoot 0 0 [(0%nat, mkCircuit [SPlain (NPlain (HConst (Layered.Constant f0))); SBool 1 2 BOr] [] [3%nat] 1)].
Lemma or_compiled_ok : exists rc', process_root F7 cmp7 eval7 or_circuit = Some rc' /\
  forall H, hn_root_realises F7 cv7 gate7 H rc' [n7 2] [n7 2].
Proof.
  assert (E : option_map (map (fval 7)) (let* rc' := process_root F7 cmp7 eval7 or_circuit in let* c := find_circuit 0 (rc_circuits rc') in
     if (rc_zeroes rc' =? 0)%nat then exec_circuit F7 cv7 c [n7 2] else None) = Some [2%Z]) by (vm_compute; reflexivity).
  destruct (process_root F7 cmp7 eval7 or_circuit) as [rc'|]; [|discriminate]. exists rc'. split; [reflexivity|]. intros H. cbn [obind] in E.
  destruct (find_circuit 0 (rc_circuits rc')) as [c|] eqn:Ec; [|discriminate]. cbn [obind] in E.
  destruct (rc_zeroes rc' =? 0)%nat eqn:Z; [|discriminate]. apply Nat.eqb_eq in Z.
  assert (E' : exec_circuit F7 cv7 c [n7 2] = Some [n7 2]) by (apply ol7_eq; rewrite E; reflexivity).
  exists 1%nat, [n7 2]. split; [|rewrite Z; reflexivity]. exists c. split; [assumption|]. now apply exec_realises.
Qed.
Lemma or_rejected H outs : ~ src_root_realises F7 cv7 gate7 H or_circuit [n7 2] outs.
Proof.
  intros (d & all & S & _). destruct d as [|d]; [exact S|]. destruct S as (c & Fc & L & w & Hr & _). cbn in Fc. injection Fc as <-.
  cbn [c_insns] in Hr. inversion Hr as [|? ? o1 ? ? S1 Hr1]; subst. cbn in S1. subst o1. inversion Hr1 as [|? ? o2 ? ? S2 Hr2]; subst.
  destruct S2 as (a & b & Ea & _ & Ba & _). cbn in Ea. injection Ea as <-.
  destruct Ba as [B|B]; apply (f_equal (fval 7)) in B; vm_compute in B; discriminate.
Qed.

(** x / y, is-zero(x), the two low bits of x (which has no more), and the
    constraint that x + y is not zero *)
Definition rich_circuit : root_circuit (src_insn F7) src_con :=
  mkRoot 0 0 [(0%nat, mkCircuit [SDiv 1 2 true; SIsZero 1; SToBinary 1 2; SUnBin 1 2 UDiv; SPlain (NPlain (HLin (mkLC [(1%nat, f1); (2%nat, f1)] f0)))]
    [(CNonZero, 8%nat)] [3%nat; 4%nat; 5%nat; 6%nat; 7%nat] 2)].
Lemma rich_compiled : exists rc', process_root F7 cmp7 eval7 rich_circuit = Some rc'.
Proof.
  assert (E : (match process_root F7 cmp7 eval7 rich_circuit with Some _ => true | None => false end) = true) by (vm_compute; reflexivity).
  destruct (process_root F7 cmp7 eval7 rich_circuit); [eauto|discriminate].
Qed.
Lemma rich_without : without_boolean_ops rich_circuit.
Proof. intros id c E. cbn in E. destruct id; [|discriminate]. injection E as <-. cbn. repeat constructor. Qed.
Lemma eq7 (a b : F7) : fval 7 a = fval 7 b -> a = b. Proof. apply fval_inj. Qed.
Lemma rich_runs : src_root_realises F7 cv7 gate7 H7 rich_circuit [n7 2; n7 3] [n7 3; n7 0; n7 0; n7 1; n7 3].
Proof.
  exists 1%nat, [n7 3; n7 0; n7 0; n7 1; n7 3]. split; [|reflexivity]. eexists. split; [reflexivity|]. split; [reflexivity|].
  exists [f0; n7 2; n7 3; n7 3; n7 0; n7 0; n7 1; n7 3; n7 5]. cbn [c_insns c_cons c_outs]. split.
  - apply (runs_cons _ _ _ [n7 3]). { exists (n7 2), (n7 3), (n7 3). repeat split. left. split; [intros B; apply (f_equal (fval 7)) in B; vm_compute in B; discriminate|apply eq7; vm_compute; reflexivity]. }
    apply (runs_cons _ _ _ [n7 0]). { exists (n7 2). split; [reflexivity|]. apply l7_eq. vm_compute. reflexivity. }
    apply (runs_cons _ _ _ [n7 0; n7 1]).
    { exists (n7 2). split; [reflexivity|]. split; [reflexivity|]. split; [apply l7_eq; vm_compute; reflexivity|]. split.
      - constructor; [left; apply eq7; vm_compute; reflexivity|]. constructor; [right; apply eq7; vm_compute; reflexivity|constructor].
      - apply eq7. vm_compute. reflexivity. }
    apply (runs_cons _ _ _ [n7 3]). { exists (n7 2), (n7 3), (n7 3). repeat split. apply l7_eq. vm_compute. reflexivity. }
    apply (runs_cons _ _ _ [n7 5]). { exists (n7 5). split; [apply o7_eq; vm_compute; reflexivity|reflexivity]. }
    apply runs_nil.
  - split; [|reflexivity]. constructor; [|constructor]. exists (n7 5). split; [reflexivity|].
    intros B. apply (f_equal (fval 7)) in B. vm_compute in B. discriminate.
Qed.

(** more hints, more runs *)
Section Free.
Variable K : field.
Variable cv : Layered.coef K -> K.
Variable gate : nat -> list K -> K.
Variables H1 H2 : hint_id -> list K -> list K -> Prop.
Hypothesis sub : forall h a r, H1 h a r -> H2 h a r.
Lemma sub_runs (c1 c2 : calls K) : (forall id a r, c1 id a r -> c2 id a r) -> forall l v w, runs K (hn_step K cv gate H1) c1 v l w -> runs K (hn_step K cv gate H2) c2 v l w.
Proof.
  intros M l. induction l as [|i l IH]; intros v w R; inversion R as [|? ? o ? ? S R']; subst; [constructor|].
  econstructor; [|apply IH; exact R']. destruct i as [i|h xs n].
  - revert S. cbn. apply hl_step_mono. exact M.
  - destruct S as (vs & A & Hh & L). exists vs. auto.
Qed.
Lemma sub_root rc ins outs : hn_root_realises K cv gate H1 rc ins outs -> hn_root_realises K cv gate H2 rc ins outs.
Proof.
  intros (d & all & S & E). exists d, all. split; [|assumption]. clear E. revert S. generalize 0%nat as id. revert ins all.
  induction d as [|d IH]; intros ins all id S; [exact S|]. destruct S as (c & Fc & L & w & R & Rest). exists c. split; [assumption|].
  split; [assumption|]. exists w. split; [|assumption]. revert R. apply sub_runs. intros i a r. apply IH.
Qed.
End Free.
Lemma rich_free : exists rc', process_root F7 cmp7 eval7 rich_circuit = Some rc' /\
   hn_root_realises F7 cv7 gate7 (fun _ _ _ => True) rc' [n7 2; n7 3] [n7 3; n7 0; n7 0; n7 1; n7 3].
Proof.
  destruct rich_compiled as (rc' & E). exists rc'. split; [assumption|]. apply (sub_root F7 cv7 gate7 H7); [auto|].
  apply (proj2 (process_root_ok F7 cmp7 eval7 gate7 cv7 cv7_const _ _ E) H7); [apply H7_honest|apply rich_runs].
Qed.
Lemma or_refuted : exists (K : field) kcmp un_eval cv gate rc rc' ins outs,
  reads_constants (K := K) cv /\ process_root K kcmp un_eval rc = Some rc' /\
  (forall H, hn_root_realises K cv gate H rc' ins outs) /\
  (forall H outs', ~ src_root_realises K cv gate H rc ins outs').
Proof.
  destruct or_compiled_ok as (rc' & E & R).
  exists F7, cmp7, eval7, cv7, gate7, or_circuit, rc', [n7 2], [n7 2].
  split; [exact cv7_const|]. split; [exact E|]. split; [exact R|]. exact or_rejected.
Qed.
