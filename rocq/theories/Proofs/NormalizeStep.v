(** What the first compiler pass emits for one source instruction or one
    constraint (Model/Normalize.v, transform and process_con), related to the
    meaning of that instruction or constraint. *)
From Coq Require Import List Bool Arith Lia Ring Field.
Import ListNotations.
From Verif Require Import Base.Array Base.Field Model.Expr Model.Ir Model.Containers Model.Normalize
  Spec.CircuitMeaning Proofs.Expr Proofs.NormalizeExpr Proofs.NormalizeBuild Proofs.NormalizePush.
From Verif Require Model.Layered.

Section Step.
Variable K : field.
Add Field Kfield_step : (fth K).
Local Open Scope fld_scope.
Notation expr := (Expr.expr K).
Notation builder := (builder K).
Variable kcmp : K -> K -> comparison.
Variable un_eval : un_op -> K -> K -> option K.
Variable gate : nat -> list K -> K.
Variable cv : Layered.coef K -> K.
Hypothesis cv_const : forall c, cv (Layered.Constant c) = c.
Notation Sinv := (Sinv K gate).
Notation ev := (Expr.ev K gate 0).
Notation mv := (NormalizeExpr.mv K).
Notation hints := (hint_id -> list K -> list K -> Prop).
Notation step H := (hn_step K cv gate H).
Notation R H := (runs K (hn_step K cv gate H)).
Notation trans := (trans K gate cv).
Notation len b := (length (b_oexprs K b)).
Local Set Default Proof Using "Type".

Definition asserted (acts : list (nat * status)) (w : list K) : Prop :=
  forall x, In (x, Asserted) acts -> nth_error w x = Some 0.
Lemma asserted_nil w : asserted [] w. Proof. intros x []. Qed.
Lemma asserted_app a c w : asserted (a ++ c) w <-> asserted a w /\ asserted c w.
Proof.
  unfold asserted. split.
  - intros G. split; intros x Hx; apply G, in_or_app; auto.
  - intros [G1 G2] x Hx. apply in_app_or in Hx as [?|?]; auto.
Qed.
Lemma asserted_one x w : asserted [(x, Asserted)] w <-> nth_error w x = Some 0.
Proof. unfold asserted. split; [intros G; apply G; now left|]. intros E y [[= <-]|[]]. assumption. Qed.
Lemma asserted_prefix acts v t : Forall (fun a : nat * status => (fst a < length v)%nat) acts -> (asserted acts (v ++ t) <-> asserted acts v).
Proof.
  intros F. rewrite Forall_forall in F. unfold asserted. split; intros G x Hx; specialize (G x Hx).
  - rewrite nth_error_app1 in G by (apply (F _ Hx)). assumption.
  - rewrite nth_error_app1 by (apply (F _ Hx)). assumption.
Qed.

Lemma look_old (vals l : list K) x a : nth_error vals x = Some a -> nth_error (vals ++ l) x = Some a.
Proof. intros E. rewrite nth_error_app1; [assumption|]. apply nth_error_Some. congruence. Qed.
Lemma look_new (vals l : list K) n k a : n = length vals -> nth_error l k = Some a -> nth_error (vals ++ l) (n + k) = Some a.
Proof. intros -> E. rewrite nth_error_app2 by lia. now replace (length vals + k - length vals)%nat with k by lia. Qed.
Lemma look_0 (vals l : list K) n a : n = length vals -> nth_error l 0 = Some a -> nth_error (vals ++ l) n = Some a.
Proof. intros -> E. rewrite nth_error_app2, Nat.sub_diag by lia. assumption. Qed.
Lemma det_cons (H : hints) call vals i r w o : (forall outs, step H call vals i outs <-> outs = o) ->
  (R H call vals (i :: r) w <-> R H call (vals ++ o) r w).
Proof.
  intros D. rewrite runs_cons_iff. split.
  - intros (o' & S & Hr). apply D in S. subst. assumption.
  - intros Hr. exists o. split; [now apply D|assumption].
Qed.
Lemma det_app (H : hints) call vals a r w v1 : (forall u, R H call vals a u <-> u = v1) -> (R H call vals (a ++ r) w <-> R H call v1 r w).
Proof.
  intros D. rewrite runs_app. split.
  - intros (u & U1 & U2). apply D in U1. subst. assumption.
  - intros Hr. exists v1. split; [now apply D|assumption].
Qed.
Lemma app2 {A} (v a c : list A) : (v ++ a) ++ c = v ++ (a ++ c). Proof. symmetry. apply app_assoc. Qed.

(** instruction lists *)
Definition I_const c : hn_insn K := NPlain (HConst (Layered.Constant c)).
Definition I_lin2 x k y l : hn_insn K := NPlain (HLin (mkLC [(x, k); (y, l)] 0)).
Definition I_lin1 x k : hn_insn K := NPlain (HLin (mkLC [(x, k)] 0)).
Definition I_mul x y : hn_insn K := NPlain (HMul [x; y]).
Definition bool_insns (x n : nat) : list (hn_insn K) := [I_const 1; I_lin2 x 1 n (- (1)); I_mul x (n + 1)].

Ltac look := first [ eassumption | apply look_0; [reflexivity|reflexivity] | apply look_new; [reflexivity|reflexivity]
                   | apply look_old; look ].
Ltac dstep := etransitivity; [apply det_cons; intros; first [apply st_const; assumption | apply st_lin2; look | apply st_lin1; look | apply st_mul; look] | rewrite ?app2; cbn [app]].
Ltac dend := rewrite runs_nil_iff.

Lemma run_bool (H : hints) call vals x n a w : n = length vals -> nth_error vals x = Some a ->
  (R H call vals (bool_insns x n) w <-> w = vals ++ [1; a - 1; a * (a - 1)]).
Proof using cv_const.
  intros N Ea. subst n. unfold bool_insns. 
  dstep. dstep. dstep. dend.
  replace (a * 1 + 1 * - (1)) with (a - 1) by ring. reflexivity.
Qed.

Lemma push_const_ok c b b' x : push_const K kcmp c b = Some (b', x) ->
  trans b b' [I_const c] [] /\ x = len b /\ len b' = (len b + 1)%nat.
Proof using cv_const. intros E. exact (trans_push1 K kcmp gate cv cv_const (I_const c) b b' x E eq_refl). Qed.
Lemma push_add_ok x y b b' z : push_add K kcmp x y b = Some (b', z) ->
  trans b b' [I_lin2 x 1 y 1] [] /\ z = len b /\ len b' = (len b + 1)%nat.
Proof using cv_const. intros E. exact (trans_push1 K kcmp gate cv cv_const (I_lin2 x 1 y 1) b b' z E eq_refl). Qed.
Lemma push_sub_ok x y b b' z : push_sub K kcmp x y b = Some (b', z) ->
  trans b b' [I_lin2 x 1 y (- (1))] [] /\ z = len b /\ len b' = (len b + 1)%nat.
Proof using cv_const. intros E. exact (trans_push1 K kcmp gate cv cv_const (I_lin2 x 1 y (- (1))) b b' z E eq_refl). Qed.
Lemma push_mul_ok x y b b' z : push_mul K kcmp x y b = Some (b', z) ->
  trans b b' [I_mul x y] [] /\ z = len b /\ len b' = (len b + 1)%nat.
Proof using cv_const. intros E. exact (trans_push1 K kcmp gate cv cv_const (I_mul x y) b b' z E eq_refl). Qed.

Lemma bool_cond_ok x b b' t : bool_cond K kcmp x b = Some (b', t) ->
  trans b b' (bool_insns x (len b)) [] /\ t = (len b + 2)%nat /\ len b' = (len b + 3)%nat.
Proof using cv_const.
  unfold bool_cond. intros E. ob E. destruct a as [b1 one]. ob E. destruct a as [b2 xm1].
  destruct (push_const_ok _ _ _ _ E0) as (T1 & -> & L1). destruct (push_sub_ok _ _ _ _ _ E1) as (T2 & -> & L2).
  destruct (push_mul_ok _ _ _ _ _ E) as (T3 & -> & L3). split; [|lia].
  pose proof (trans_trans _ _ _ _ _ _ _ _ _ _ (trans_trans _ _ _ _ _ _ _ _ _ _ T1 T2) T3) as T. cbn [app] in T.
  replace (len b1) with (len b + 1)%nat in T by lia. exact T.
Qed.
Lemma assert_bool_ok x b b' : assert_bool K kcmp x b = Some b' ->
  trans b b' (bool_insns x (len b)) [((len b + 2)%nat, Asserted)] /\ len b' = (len b + 3)%nat.
Proof using cv_const.
  unfold assert_bool. intros E. ob E. destruct a as [b1 t]. destruct (bool_cond_ok _ _ _ _ E0) as (T1 & -> & L1).
  destruct (trans_assert K gate cv _ _ _ E) as [T2 O]. rewrite O. split; [|assumption].
  pose proof (trans_trans _ _ _ _ _ _ _ _ _ _ T1 T2) as T. rewrite app_nil_r in T. exact T.
Qed.
Lemma mark_bool_ok x b b' : mark_bool K kcmp x b = Some b' ->
  trans b b' (bool_insns x (len b)) [((len b + 2)%nat, Marked)] /\ len b' = (len b + 3)%nat.
Proof using cv_const.
  unfold mark_bool. intros E. ob E. destruct a as [b1 t]. destruct (bool_cond_ok _ _ _ _ E0) as (T1 & -> & L1).
  destruct (trans_mark K gate cv _ _ _ E) as [T2 O]. rewrite O. split; [|assumption].
  pose proof (trans_trans _ _ _ _ _ _ _ _ _ _ T1 T2) as T. rewrite app_nil_r in T. exact T.
Qed.
Lemma is_bit_iff (a : K) : a * (a - 1) = 0 <-> is_bit a.
Proof.
  unfold is_bit. split.
  - intros E. apply fmul_integral in E as [E|E]; [now left|]. right. now apply fsub_eq.
  - intros [-> | ->]; ring.
Qed.

(** *** the groups *)
(** hypotheses on the hints: for soundness they allow at least what the compiler
    computes itself; for completeness they compute what the compiler computes *)
Definition allows (H : hints) : Prop :=
  (forall op a c r, un_eval op a c = Some r -> H (HidBin op) [a; c] [r]) /\
  (forall a c d, H HidSelect [a; c; d] [if feqb a 0 then d else c]).
Definition computes (H : hints) : Prop :=
  (forall op a c r q, un_eval op a c = Some r -> H (HidBin op) [a; c] [q] -> q = r) /\
  (forall a c d q, H HidSelect [a; c; d] [q] -> q = if feqb a 0 then d else c) /\
  (forall a c, c <> 0 -> H (HidBin UDiv) [a; c] [a / c]) /\
  (exists r, H (HidBin UDiv) [1; 0] [r]).
Definition All : hints := fun _ _ _ => True.

Record marks_ok (b b' : builder) (orig : list (hn_insn K)) (acts : list (nat * status)) : Prop := {
  mk_free : forall J call vals ms, In (J, Marked) acts -> Sinv b vals ms ->
    exists w, R All call vals orig w /\ nth_error w J = Some 0;
  mk_implied : forall J H call vals ms w, In (J, Marked) acts -> Sinv b vals ms -> R H call vals orig w ->
    asserted acts w -> nth_error w J = Some 0;
  mk_self : forall J x H call vals ms w, In (J, Marked) acts -> In (x, Asserted) acts -> Sinv b vals ms -> R H call vals orig w ->
    nth_error (b_oexprs K b') x = nth_error (b_oexprs K b') J -> nth_error w x = Some 0 }.
Lemma marks_none b b' orig acts : (forall J, ~ In (J, Marked) acts) -> marks_ok b b' orig acts.
Proof. intros N. constructor; intros J; intros; exfalso; eapply N; eassumption. Qed.

Definition is_bool_op (i : src_insn K) : bool := match i with SBool _ _ _ => true | _ => false end.

Definition in_scope (b : builder) (x : nat) : Prop := (x < len b)%nat.
Record group (b b' : builder) (xs : list nat) (orig : list (hn_insn K)) (acts : list (nat * status)) (i : src_insn K) : Prop := {
  g_trans : trans b b' orig acts;
  g_sound : forall H call vals ms w, allows H -> Sinv b vals ms -> R H call vals orig w -> asserted acts w ->
    exists outs, src_step K cv gate H call vals i outs /\ at_all w xs = Some outs;
  g_complete : forall H call vals ms outs, computes H -> Sinv b vals ms -> src_step K cv gate H call vals i outs ->
    exists w, R H call vals orig w /\ asserted acts w /\ at_all w xs = Some outs;
  g_marks : is_bool_op i = false -> marks_ok b b' orig acts;
  g_scope : Forall (in_scope b') xs }.
Lemma scope_val b vals ms x : Sinv b vals ms -> in_scope b x -> exists a, nth_error vals x = Some a.
Proof.
  intros S L. destruct (nth_error vals x) eqn:E; [eauto|]. apply nth_error_None in E.
  rewrite (s_len _ _ _ _ _ S) in E. unfold in_scope in L. lia.
Qed.
Definition rich_vars (i : src_insn K) : list nat :=
  match i with
  | SPlain _ | SCommit _ => []
  | SDiv x y _ => [x; y] | SBool x y _ => [x; y] | SIsZero x => [x] | SUnBin x y _ => [x; y]
  | SUnSelect c t f => [c; t; f] | SToBinary x _ => [x]
  end.

Lemma const_val b vals ms x c : Sinv b vals ms -> constant_value K b x = Some (Some c) -> nth_error vals x = Some c.
Proof.
  intros S E. unfold constant_value in E. ob E. injection E as E. rewrite (sinv_lookup K gate b vals ms x a S E0).
  f_equal. now apply constant_value_ok.
Qed.
Lemma at_old (v t : list K) l : forall r, at_all v l = Some r -> at_all (v ++ t) l = Some r.
Proof.
  unfold at_all. induction l as [|z l IHl]; intros r A1; [exact A1|].
  apply omap_cons_some in A1 as (y & s & F1 & F2 & ->). cbn [omap]. rewrite (look_old _ _ _ _ F1). cbn [obind]. rewrite (IHl _ F2). reflexivity.
Qed.
Lemma at_seq (vals outs : list K) n : n = length outs -> at_all (vals ++ outs) (seq (length vals) n) = Some outs.
Proof.
  intros ->. unfold at_all. revert vals. induction outs as [|a outs IH]; intros vals; [reflexivity|].
  cbn [length seq omap]. rewrite nth_error_app2, Nat.sub_diag by lia. cbn [nth_error obind].
  specialize (IH (vals ++ [a])). rewrite app_length in IH. cbn [length] in IH. rewrite Nat.add_1_r, <- app_assoc in IH.
  cbn [app] in IH. rewrite IH. reflexivity.
Qed.

Lemma trans_len b b' o a : trans b b' o a -> len b' = (len b + outs_of K o)%nat.
Proof. intros T. destruct (tr_oexprs _ _ _ _ _ _ _ T) as (es & -> & L). rewrite app_length. lia. Qed.
(** an instruction passed on as it is, or a single replacement instruction *)
Lemma group_insn b b' i o : push K kcmp o b = Some b' ->
  (forall H call vals ms outs, allows H -> Sinv b vals ms -> step H call vals o outs -> src_step K cv gate H call vals i outs) ->
  (forall H call vals ms outs, computes H -> Sinv b vals ms -> src_step K cv gate H call vals i outs -> step H call vals o outs) ->
  group b b' (seq (len b) (hn_outputs o)) [o] [] i.
Proof using cv_const.
  intros E F G. pose proof (trans_push K kcmp gate cv cv_const o b b' E) as T. constructor; [assumption| | | |].
  - intros H call vals ms w Al S Hr _. apply runs_cons_iff in Hr as (outs & St & Hr). apply runs_nil_iff in Hr. subst w.
    exists outs. split; [now apply F with (ms := ms)|]. rewrite <- (s_len _ _ _ _ _ S). apply at_seq.
    symmetry. eapply hl_outputs_len. exact St.
  - intros H call vals ms outs Cm S St. exists (vals ++ outs). pose proof (G H call vals ms outs Cm S St) as St'.
    split; [apply runs_cons_iff; exists outs; split; [assumption|now apply runs_nil_iff]|]. split; [apply asserted_nil|].
    rewrite <- (s_len _ _ _ _ _ S). apply at_seq. symmetry. eapply hl_outputs_len. exact St'.
  - intros _. apply marks_none. intros J [].
  - apply Forall_forall. intros x Hx. apply in_seq in Hx. unfold in_scope. rewrite (trans_len _ _ _ _ T). unfold outs_of. cbn. lia.
Qed.
Lemma at_one (w : list K) x a : nth_error w x = Some a -> at_all w [x] = Some [a].
Proof. intros E. unfold at_all. cbn. now rewrite E. Qed.

(** Div *)
Lemma hint_cons (H : hints) call vals h x y a c r w : nth_error vals x = Some a -> nth_error vals y = Some c ->
  (R H call vals (NHint h [x; y] 1 :: r) w <-> exists q, H h [a; c] [q] /\ R H call (vals ++ [q]) r w).
Proof.
  intros Ea Ec. rewrite runs_cons_iff. split.
  - intros (o & St & Hr). rewrite (st_hint2 K gate cv H call vals h x y a c o Ea Ec) in St. destruct St as (q & -> & Hh). eauto.
  - intros (q & Hh & Hr). exists [q]. split; [|assumption]. apply (st_hint2 K gate cv H call vals h x y a c _ Ea Ec). eauto.
Qed.
Definition div_const_insns x n c := [I_const (finv c); I_mul x n].
Definition inv_insns y n : list (hn_insn K) := [I_const 1; NHint div_hint [n; y] 1; I_mul y (n + 1); I_lin2 (n + 2) 1 n (- (1))].
Lemma run_inv (H : hints) call vals y n c w r : n = length vals -> nth_error vals y = Some c ->
  (R H call vals (inv_insns y n ++ r) w <-> exists q, H (HidBin UDiv) [1; c] [q] /\ R H call (vals ++ [1; q; c * q; c * q - 1]) r w).
Proof using cv_const.
  intros N Ec. subst n. unfold inv_insns. cbn [app].
  dstep. etransitivity; [apply hint_cons; look|]. 
  split; intros (q & Hh & Hr); exists q; (split; [exact Hh|]); revert Hr; rewrite ?app2; cbn [app].
  - intros Hr. assert (G : R H call (vals ++ [1; q]) (I_mul y (length vals + 1) :: I_lin2 (length vals + 2) 1 (length vals) (- (1)) :: r) w <->
      R H call (vals ++ [1; q; c * q; c * q * 1 + 1 * - (1)]) r w). { dstep. dstep. reflexivity. }
    apply G in Hr. replace (c * q - 1) with (c * q * 1 + 1 * - (1)) by ring. exact Hr.
  - intros Hr. assert (G : R H call (vals ++ [1; q]) (I_mul y (length vals + 1) :: I_lin2 (length vals + 2) 1 (length vals) (- (1)) :: r) w <->
      R H call (vals ++ [1; q; c * q; c * q * 1 + 1 * - (1)]) r w). { dstep. dstep. reflexivity. }
    apply G. replace (c * q * 1 + 1 * - (1)) with (c * q - 1) by ring. exact Hr.
Qed.
Lemma inv_push y b b1 b2 b3 b4 one inv multy sub1 :
  push_const K kcmp 1 b = Some (b1, one) -> push1 K kcmp (NHint div_hint [one; y] 1) b1 = Some (b2, inv) ->
  push_mul K kcmp y inv b2 = Some (b3, multy) -> push_sub K kcmp multy one b3 = Some (b4, sub1) ->
  trans b b4 (inv_insns y (len b)) [] /\ inv = (len b + 1)%nat /\ sub1 = (len b + 3)%nat /\ len b4 = (len b + 4)%nat.
Proof using cv_const.
  intros E1 E2 E3 E4. destruct (push_const_ok _ _ _ _ E1) as (T1 & -> & L1).
  destruct (trans_push1 K kcmp gate cv cv_const _ _ _ _ E2 eq_refl) as (T2 & -> & L2).
  destruct (push_mul_ok _ _ _ _ _ E3) as (T3 & -> & L3). destruct (push_sub_ok _ _ _ _ _ E4) as (T4 & -> & L4).
  split; [|lia].
  pose proof (trans_trans _ _ _ _ _ _ _ _ _ _ (trans_trans _ _ _ _ _ _ _ _ _ _ (trans_trans _ _ _ _ _ _ _ _ _ _ T1 T2) T3) T4) as T.
  cbn [app] in T. replace (len b1) with (len b + 1)%nat in T by lia. replace (len b2) with (len b + 2)%nat in T by lia. exact T.
Qed.

Lemma group_select b (c t f : nat) cond : constant_value K b c = Some (Some cond) -> in_scope b t -> in_scope b f ->
  group b b [if feqb cond 0 then f else t] [] [] (SUnSelect c t f).
Proof.
  intros Ec It If. constructor; [apply trans_refl| | | |].
  - intros H call vals ms w Al S Hr _. apply runs_nil_iff in Hr. subst w.
    destruct (scope_val _ _ _ _ S It) as (b1 & Eb). destruct (scope_val _ _ _ _ S If) as (d & Ed).
    pose proof (const_val _ _ _ _ _ S Ec) as Ea. exists [if feqb cond 0 then d else b1]. split.
    + cbn. exists cond, b1, d, (if feqb cond 0 then d else b1). repeat (split; [assumption||reflexivity|]). apply Al.
    + apply at_one. destruct (feqb cond 0); assumption.
  - intros H call vals ms outs Cm S (a & b1 & d & r & Ea & Eb & Ed & -> & Hh). exists vals.
    split; [now apply runs_nil_iff|]. split; [apply asserted_nil|]. apply at_one.
    rewrite (const_val _ _ _ _ _ S Ec) in Ea. injection Ea as <-. destruct Cm as (_ & Cs & _). rewrite (Cs _ _ _ _ Hh).
    destruct (feqb cond 0); assumption.
  - intros _. apply marks_none. intros J [].
  - constructor; [|constructor]. destruct (feqb cond 0); assumption.
Qed.

Lemma group_div_const b b1 b2 x y yv yi checked : in_scope b x -> constant_value K b y = Some (Some yv) -> feqb yv 0 = false ->
  push_const K kcmp (finv yv) b = Some (b1, yi) -> push K kcmp (NPlain (HMul [x; yi])) b1 = Some b2 ->
  group b b2 (seq (len b1) 1) (div_const_insns x (len b) yv) [] (SDiv x y checked).
Proof using cv_const.
  intros Ix Ey Nz E1 E2. destruct (push_const_ok _ _ _ _ E1) as (T1 & -> & L1).
  pose proof (trans_push K kcmp gate cv cv_const _ _ _ E2) as T2.
  assert (Nz' : yv <> 0) by (intros ->; assert (feqb 0 (0:K) = true) by (now apply feqb_eq); congruence).
  assert (Run : forall (H : hints) call vals w a, len b = length vals -> nth_error vals x = Some a ->
    (R H call vals (div_const_insns x (len b) yv) w <-> w = vals ++ [finv yv; a * finv yv])).
  { intros H call vals w a Lv Ea. rewrite Lv. unfold div_const_insns. dstep. dstep. dend. reflexivity. }
  assert (Dv : forall a : K, a * finv yv = a / yv) by (intros a; field; assumption).
  constructor.
  - exact (trans_trans _ _ _ _ _ _ _ _ _ _ T1 T2).
  - intros H call vals ms w Al S Hr _. destruct (scope_val _ _ _ _ S Ix) as (a & Ea).
    apply (Run H call vals w a (eq_sym (s_len _ _ _ _ _ S)) Ea) in Hr. subst w. exists [a / yv]. split.
    + exists a, yv, (a / yv). split; [assumption|]. split; [eapply const_val; eassumption|]. split; [reflexivity|]. left. auto.
    + rewrite L1. cbn [seq]. apply at_one. rewrite <- Dv. apply look_new; [symmetry; apply (s_len _ _ _ _ _ S)|reflexivity].
  - intros H call vals ms outs Cm S (a & c & r & Ea & Ec & -> & D).
    rewrite (const_val _ _ _ _ _ S Ey) in Ec. injection Ec as <-. destruct D as [[_ ->]|[? _]]; [|contradiction].
    eexists. split; [apply (Run H call vals _ a (eq_sym (s_len _ _ _ _ _ S)) Ea); reflexivity|]. split; [apply asserted_nil|].
    rewrite L1. cbn [seq]. apply at_one. rewrite <- Dv. apply look_new; [symmetry; apply (s_len _ _ _ _ _ S)|reflexivity].
  - intros _. apply marks_none. intros J [].
  - pose proof (trans_len _ _ _ _ T2) as L2. unfold outs_of in L2. cbn in L2. constructor; [|constructor]. unfold in_scope. lia.
Qed.

Lemma group_div_checked b b4 b5 b6 x y : in_scope b x -> in_scope b y ->
  trans b b4 (inv_insns y (len b)) [] -> len b4 = (len b + 4)%nat ->
  assert_zero K (len b + 3) b4 = Some b5 -> push K kcmp (NPlain (HMul [x; (len b + 1)%nat])) b5 = Some b6 ->
  group b b6 (seq (len b5) 1) (inv_insns y (len b) ++ [I_mul x (len b + 1)]) [((len b + 3)%nat, Asserted)] (SDiv x y true).
Proof using cv_const.
  intros Ix Iy T1 L1 E2 E3. destruct (trans_assert K gate cv _ _ _ E2) as [T2 O2].
  pose proof (trans_push K kcmp gate cv cv_const _ _ _ E3) as T3.
  pose proof (trans_trans _ _ _ _ _ _ _ _ _ _ (trans_trans _ _ _ _ _ _ _ _ _ _ T1 T2) T3) as T. rewrite !app_nil_r in T. cbn [app] in T.
  assert (L5 : len b5 = (len b + 4)%nat) by congruence.
  assert (Run : forall (H : hints) call vals w a c, len b = length vals -> nth_error vals x = Some a -> nth_error vals y = Some c ->
    (R H call vals (inv_insns y (len b) ++ [I_mul x (len b + 1)]) w <->
     exists q, H (HidBin UDiv) [1; c] [q] /\ w = vals ++ [1; q; c * q; c * q - 1; a * q])).
  { intros H call vals w a c Lv Ea Ec. etransitivity; [apply run_inv; [exact Lv|exact Ec]|].
    rewrite Lv. split; intros (q & Hh & Hr); exists q; (split; [assumption|]).
    - apply (det_cons H call _ _ _ _ [a * q]) in Hr; [|intros; apply st_mul; look]. rewrite app2 in Hr. now apply runs_nil_iff in Hr.
    - apply (det_cons H call _ _ _ _ [a * q]); [intros; apply st_mul; look|]. rewrite app2. now apply runs_nil_iff. }
  constructor; [exact T| | | |].
  - intros H call vals ms w Al S Hr As. pose proof (eq_sym (s_len _ _ _ _ _ S)) as Lv.
    destruct (scope_val _ _ _ _ S Ix) as (a & Ea). destruct (scope_val _ _ _ _ S Iy) as (c & Ec).
    apply (Run H call vals w a c Lv Ea Ec) in Hr as (q & Hh & ->). apply asserted_one in As.
    erewrite (look_new vals _ (len b) 3 (c * q - 1)) in As; [|exact Lv|reflexivity]. injection As as As. apply (proj1 (fsub_eq K _ _)) in As.
    assert (Nc : c <> 0). { intros ->. apply (f1_neq_0 K). transitivity (0 * q); [now symmetry|ring]. }
    exists [a / c]. split.
    + exists a, c, (a / c). repeat (split; [assumption||reflexivity|]). left. auto.
    + rewrite L5. cbn [seq]. apply at_one. erewrite (look_new vals _ (len b) 4 (a * q)); [|exact Lv|reflexivity]. f_equal.
      transitivity (a * (c * q) / c); [field; assumption|]. rewrite As. field. assumption.
  - intros H call vals ms outs Cm S (a & c & r & Ea & Ec & -> & D). pose proof (eq_sym (s_len _ _ _ _ _ S)) as Lv.
    destruct D as [[Nc ->]|(_ & _ & D & _)]; [|discriminate].
    eexists. split; [apply (Run H call vals _ a c Lv Ea Ec); exists (1 / c); split; [now apply Cm|reflexivity]|]. split.
    + apply asserted_one. erewrite (look_new vals _ (len b) 3 (c * (1 / c) - 1)); [|exact Lv|reflexivity]. f_equal. field. assumption.
    + rewrite L5. cbn [seq]. apply at_one. erewrite (look_new vals _ (len b) 4 (a * (1 / c))); [|exact Lv|reflexivity]. f_equal. field. assumption.
  - intros _. apply marks_none. intros J [E|[]]. discriminate.
  - pose proof (trans_len _ _ _ _ T3) as L6. unfold outs_of in L6. cbn in L6. constructor; [|constructor]. unfold in_scope. lia.
Qed.

Definition udiv_insns x y n : list (hn_insn K) := [NHint div_hint [x; y] 1; I_mul y n; I_lin2 (n + 1) 1 x (- (1))].
Lemma group_div_unchecked b b1 b2 b3 b4 x y res multy subx : in_scope b x -> in_scope b y ->
  push1 K kcmp (NHint div_hint [x; y] 1) b = Some (b1, res) -> push_mul K kcmp y res b1 = Some (b2, multy) ->
  push_sub K kcmp multy x b2 = Some (b3, subx) -> assert_zero K subx b3 = Some b4 ->
  group b b4 [res] (udiv_insns x y (len b)) [((len b + 2)%nat, Asserted)] (SDiv x y false).
Proof using cv_const.
  intros Ix Iy E1 E2 E3 E4. destruct (trans_push1 K kcmp gate cv cv_const _ _ _ _ E1 eq_refl) as (T1 & -> & L1).
  destruct (push_mul_ok _ _ _ _ _ E2) as (T2 & -> & L2). destruct (push_sub_ok _ _ _ _ _ E3) as (T3 & -> & L3).
  destruct (trans_assert K gate cv _ _ _ E4) as [T4 O4].
  pose proof (trans_trans _ _ _ _ _ _ _ _ _ _ (trans_trans _ _ _ _ _ _ _ _ _ _ (trans_trans _ _ _ _ _ _ _ _ _ _ T1 T2) T3) T4) as T.
  cbn [app] in T. replace (len b1) with (len b + 1)%nat in T by lia. replace (len b2) with (len b + 2)%nat in T by lia.
  assert (Run : forall (H : hints) call vals w a c, len b = length vals -> nth_error vals x = Some a -> nth_error vals y = Some c ->
    (R H call vals (udiv_insns x y (len b)) w <-> exists q, H (HidBin UDiv) [a; c] [q] /\ w = vals ++ [q; c * q; c * q - a])).
  { intros H call vals w a c Lv Ea Ec. rewrite Lv. unfold udiv_insns. etransitivity; [apply hint_cons; eassumption|].
    assert (G : forall q, R H call (vals ++ [q]) [I_mul y (length vals); I_lin2 (length vals + 1) 1 x (- (1))] w <-> w = vals ++ [q; c * q; c * q - a]).
    { intros q. dstep. dstep. dend. replace (c * q * 1 + a * - (1)) with (c * q - a) by ring. reflexivity. }
    split; intros (q & Hh & Hr); exists q; (split; [assumption|]); now apply G. }
  constructor; [exact T| | | |].
  - intros H call vals ms w Al S Hr As. pose proof (eq_sym (s_len _ _ _ _ _ S)) as Lv.
    destruct (scope_val _ _ _ _ S Ix) as (a & Ea). destruct (scope_val _ _ _ _ S Iy) as (c & Ec).
    apply (Run H call vals w a c Lv Ea Ec) in Hr as (q & Hh & ->). apply asserted_one in As.
    erewrite (look_new vals _ (len b) 2 (c * q - a)) in As; [|exact Lv|reflexivity]. injection As as As. apply (proj1 (fsub_eq K _ _)) in As.
    exists [q]. split; [|apply at_one; apply look_0; [assumption|reflexivity]].
    exists a, c, q. repeat (split; [assumption||reflexivity|]). destruct (feq_dec c 0) as [->|Nc].
    + right. split; [reflexivity|]. assert (a = 0) by (rewrite <- As; ring). subst a. auto.
    + left. split; [assumption|]. rewrite <- As. field. assumption.
  - intros H call vals ms outs Cm S (a & c & r & Ea & Ec & -> & D). pose proof (eq_sym (s_len _ _ _ _ _ S)) as Lv.
    assert (Hr : H (HidBin UDiv) [a; c] [r]).
    { destruct D as [[Nc ->]|(-> & -> & _ & Hh)]; [now apply Cm|assumption]. }
    eexists. split; [apply (Run H call vals _ a c Lv Ea Ec); exists r; split; [assumption|reflexivity]|]. split.
    + apply asserted_one. erewrite (look_new vals _ (len b) 2 (c * r - a)); [|exact Lv|reflexivity]. f_equal.
      destruct D as [[Nc ->]|(-> & -> & _ & Hh)]; [field; assumption|ring].
    + apply at_one. apply look_0; [assumption|reflexivity].
  - intros _. apply marks_none. intros J [E|[]]. discriminate.
  - constructor; [|constructor]. unfold in_scope. rewrite O4. lia.
Qed.

Definition isz_insns x n : list (hn_insn K) :=
  [I_const 1; NHint div_hint [n; x] 1; I_mul x (n + 1); I_lin2 n 1 (n + 2) (- (1)); I_mul x (n + 3)] ++ bool_insns (n + 3) (n + 5).
Lemma group_iszero b b1 b2 b3 b4 b5 b6 b7 x one inv prod m xm : in_scope b x ->
  push_const K kcmp 1 b = Some (b1, one) -> push1 K kcmp (NHint div_hint [one; x] 1) b1 = Some (b2, inv) ->
  push_mul K kcmp x inv b2 = Some (b3, prod) -> push_sub K kcmp one prod b3 = Some (b4, m) ->
  push_mul K kcmp x m b4 = Some (b5, xm) -> assert_zero K xm b5 = Some b6 -> mark_bool K kcmp m b6 = Some b7 ->
  group b b7 [m] (isz_insns x (len b)) [((len b + 4)%nat, Asserted); ((len b + 7)%nat, Marked)] (SIsZero x).
Proof using cv_const.
  intros Ix E1 E2 E3 E4 E5 E6 E7. destruct (push_const_ok _ _ _ _ E1) as (T1 & -> & L1).
  destruct (trans_push1 K kcmp gate cv cv_const _ _ _ _ E2 eq_refl) as (T2 & -> & L2).
  destruct (push_mul_ok _ _ _ _ _ E3) as (T3 & -> & L3). destruct (push_sub_ok _ _ _ _ _ E4) as (T4 & -> & L4).
  destruct (push_mul_ok _ _ _ _ _ E5) as (T5 & -> & L5). destruct (trans_assert K gate cv _ _ _ E6) as [T6 O6].
  destruct (mark_bool_ok _ _ _ E7) as [T7 L7]. rewrite O6 in *.
  pose proof (trans_trans _ _ _ _ _ _ _ _ _ _ (trans_trans _ _ _ _ _ _ _ _ _ _ (trans_trans _ _ _ _ _ _ _ _ _ _ (trans_trans _ _ _ _ _ _ _ _ _ _ (trans_trans _ _ _ _ _ _ _ _ _ _ (trans_trans _ _ _ _ _ _ _ _ _ _ T1 T2) T3) T4) T5) T6) T7) as T.
  cbn [app] in T.
  replace (len b1) with (len b + 1)%nat in * by lia. replace (len b2) with (len b + 2)%nat in * by lia.
  replace (len b3) with (len b + 3)%nat in * by lia. replace (len b4) with (len b + 4)%nat in * by lia.
  replace (len b5) with (len b + 5)%nat in * by lia. replace (len b + 5 + 2)%nat with (len b + 7)%nat in T by lia.
  assert (Run : forall (H : hints) call vals w a, len b = length vals -> nth_error vals x = Some a ->
    (R H call vals (isz_insns x (len b)) w <-> exists q, H (HidBin UDiv) [1; a] [q] /\
       w = vals ++ [1; q; a * q; 1 - a * q; a * (1 - a * q); 1; 1 - a * q - 1; (1 - a * q) * (1 - a * q - 1)])).
  { intros H call vals w a Lv Ea. rewrite Lv. unfold isz_insns, bool_insns. cbn [app]. dstep.
    etransitivity; [apply hint_cons; look|].
    assert (G : forall q, R H call ((vals ++ [1]) ++ [q]) [I_mul x (length vals + 1); I_lin2 (length vals) 1 (length vals + 2) (- (1)); I_mul x (length vals + 3); 
       I_const 1; I_lin2 (length vals + 3) 1 (length vals + 5) (- (1)); I_mul (length vals + 3) (length vals + 5 + 1)] w <->
       w = vals ++ [1; q; a * q; 1 - a * q; a * (1 - a * q); 1; 1 - a * q - 1; (1 - a * q) * (1 - a * q - 1)]).
    { intros q. replace (length vals + 5 + 1)%nat with (length vals + 6)%nat by lia.
      rewrite ?app2; cbn [app]. dstep. dstep. dstep. dstep. dstep. dstep. dend.
      replace (1 * 1 + a * q * - (1)) with (1 - a * q) by ring.
      replace ((1 - a * q) * 1 + 1 * - (1)) with (1 - a * q - 1) by ring. reflexivity. }
    split; intros (q & Hh & Hr); exists q; (split; [assumption|]); now apply G. }
  constructor; [exact T| | | |].
  - intros H call vals ms w Al S Hr As. pose proof (eq_sym (s_len _ _ _ _ _ S)) as Lv.
    destruct (scope_val _ _ _ _ S Ix) as (a & Ea). apply (Run H call vals w a Lv Ea) in Hr as (q & Hh & ->).
    specialize (As (len b + 4)%nat (or_introl eq_refl)). erewrite (look_new vals _ (len b) 4 (a * (1 - a * q))) in As; [|exact Lv|reflexivity].
    injection As as As. exists [1 - a * q]. split; [|apply at_one; apply look_new; [assumption|reflexivity]].
    exists a. split; [assumption|]. f_equal. destruct (feq_dec a 0) as [->|Na]; [ring|].
    apply fmul_integral in As as [?|As]; [contradiction|assumption].
  - intros H call vals ms outs Cm S (a & Ea & ->). pose proof (eq_sym (s_len _ _ _ _ _ S)) as Lv.
    assert (G : exists q, H (HidBin UDiv) [1; a] [q] /\ 1 - a * q = if feq_dec a 0 then 1 else 0).
    { destruct Cm as (_ & _ & C3 & r & C4). destruct (feq_dec a 0) as [->|Na].
      - exists r. split; [assumption|ring].
      - exists (1 / a). split; [now apply C3|field; assumption]. }
    destruct G as (q & Hh & Eq). eexists. split; [apply (Run H call vals _ a Lv Ea); exists q; split; [assumption|reflexivity]|]. split.
    + intros z [E|[E|[]]]; [|discriminate]. injection E as <-. erewrite (look_new vals _ (len b) 4 (a * (1 - a * q))); [|exact Lv|reflexivity]. f_equal.
      rewrite Eq. destruct (feq_dec a 0) as [->|Na]; ring.
    + apply at_one. rewrite <- Eq. apply look_new; [assumption|reflexivity].
  - intros _. constructor.
    + intros J call vals ms [E|[E|[]]] S; [discriminate|]. injection E as <-. pose proof (eq_sym (s_len _ _ _ _ _ S)) as Lv.
      destruct (scope_val _ _ _ _ S Ix) as (a & Ea).
      eexists. split; [apply (Run All call vals _ a Lv Ea); exists 0; split; [exact I|reflexivity]|].
      erewrite look_new; [|exact Lv|reflexivity]. f_equal. ring.
    + intros J H call vals ms w [E|[E|[]]] S Hr As; [discriminate|]. injection E as <-. pose proof (eq_sym (s_len _ _ _ _ _ S)) as Lv.
      destruct (scope_val _ _ _ _ S Ix) as (a & Ea). apply (Run H call vals w a Lv Ea) in Hr as (q & Hh & ->).
      specialize (As (len b + 4)%nat (or_introl eq_refl)). erewrite (look_new vals _ (len b) 4 (a * (1 - a * q))) in As; [|exact Lv|reflexivity]. injection As as As.
      erewrite look_new; [|exact Lv|reflexivity]. f_equal.
      transitivity (- q * (a * (1 - a * q))); [ring|rewrite As; ring].
    + intros J z H call vals ms w [E|[E|[]]] [F|[F|[]]] S Hr Oe; try discriminate. injection E as <-. injection F as <-.
      pose proof (eq_sym (s_len _ _ _ _ _ S)) as Lv.
      destruct (scope_val _ _ _ _ S Ix) as (a & Ea). apply (Run H call vals w a Lv Ea) in Hr as (q & Hh & ->).
      erewrite (look_new vals _ (len b) 4 (a * (1 - a * q))); [|exact Lv|reflexivity]. f_equal.
      set (w0 := vals ++ [1; 0; a * 0; 1 - a * 0; a * (1 - a * 0); 1; 1 - a * 0 - 1; (1 - a * 0) * (1 - a * 0 - 1)]).
      assert (R0 : R All call vals (isz_insns x (len b)) w0) by (apply (Run All call vals _ a Lv Ea); exists 0; split; [exact I|reflexivity]).
      destruct (tr_runs _ _ _ _ _ _ _ T) as (new & _ & Tr). destruct (Tr All call vals ms S) as [_ Tr'].
      destruct (Tr' w0 R0) as (ms' & _ & S').
      assert (G4 : nth_error w0 (len b + 4) = Some (a * (1 - a * 0))) by (apply look_new; [assumption|reflexivity]).
      assert (G7 : nth_error w0 (len b + 7) = Some ((1 - a * 0) * (1 - a * 0 - 1))) by (apply look_new; [assumption|reflexivity]).
      assert (Lw : (len b + 4 < len b7)%nat) by lia.
      destruct (nth_error (b_oexprs K b7) (len b + 4)) as [e|] eqn:Ee; [|apply nth_error_None in Ee; lia].
      symmetry in Oe. rewrite (sinv_lookup K gate b7 w0 ms' _ e S' Ee) in G4. rewrite (sinv_lookup K gate b7 w0 ms' _ e S' Oe) in G7.
      rewrite G4 in G7. injection G7 as G7. assert (a = 0). { transitivity (a * (1 - a * 0)); [ring|]. rewrite G7. ring. } subst a. ring.
  - constructor; [|constructor]. unfold in_scope. lia.
Qed.

(** and, or, xor *)
Definition bop_val (op : bool_op) (a c : K) : K := match op with BXor => a + c - two K * a * c | BOr => a + c - a * c | BAnd => a * c end.
Definition bop_insns (op : bool_op) (n : nat) : list (hn_insn K) :=
  match op with BAnd => [] | BOr => [I_lin2 (n + 6) 1 (n + 7) (- (1))] | BXor => [I_lin2 (n + 6) 1 (n + 7) (- (1 + 1))] end.
Definition bop_res (op : bool_op) (n : nat) : nat := match op with BAnd => (n + 7)%nat | _ => (n + 8)%nat end.
Definition bool_op_insns x y op n : list (hn_insn K) :=
  bool_insns x n ++ bool_insns y (n + 3) ++ [I_lin2 x 1 y 1; I_mul x y] ++ bop_insns op n.
Lemma run_bool_op (H : hints) call vals x y op n a c : n = length vals -> nth_error vals x = Some a -> nth_error vals y = Some c ->
  exists ext, (forall w, R H call vals (bool_op_insns x y op n) w <-> w = vals ++ ext) /\
    length ext = (8 + length (bop_insns op n))%nat /\
    nth_error ext 2 = Some (a * (a - 1)) /\ nth_error ext 5 = Some (c * (c - 1)) /\
    nth_error (vals ++ ext) (bop_res op n) = Some (bop_val op a c).
Proof using cv_const.
  intros -> Ea Ec.
  assert (G : forall w, R H call vals (bool_insns x (length vals) ++ bool_insns y (length vals + 3) ++ [I_lin2 x 1 y 1; I_mul x y] ++ bop_insns op (length vals)) w <->
     R H call (vals ++ [1; a - 1; a * (a - 1); 1; c - 1; c * (c - 1); a * 1 + c * 1; a * c]) (bop_insns op (length vals)) w).
  { intros w. etransitivity; [apply det_app; intros; apply (run_bool H call vals x (length vals) a _ eq_refl Ea)|].
    etransitivity; [apply det_app; intros; apply (run_bool H call _ y (length vals + 3) c); [rewrite app_length; reflexivity|look]|].
    rewrite ?app2. cbn [app]. dstep. dstep. reflexivity. }
  destruct op; cbn [bop_insns bop_res bop_val] in *.
  - exists [1; a - 1; a * (a - 1); 1; c - 1; c * (c - 1); a * 1 + c * 1; a * c; (a * 1 + c * 1) * 1 + a * c * - (1 + 1)].
    split; [intros w; unfold bool_op_insns; etransitivity; [apply G|]; dstep; dend; reflexivity|].
    repeat (split; [reflexivity|]). erewrite look_new; [|reflexivity|reflexivity]. f_equal. unfold two. ring.
  - exists [1; a - 1; a * (a - 1); 1; c - 1; c * (c - 1); a * 1 + c * 1; a * c; (a * 1 + c * 1) * 1 + a * c * - (1)].
    split; [intros w; unfold bool_op_insns; etransitivity; [apply G|]; dstep; dend; reflexivity|].
    repeat (split; [reflexivity|]). erewrite look_new; [|reflexivity|reflexivity]. f_equal. ring.
  - exists [1; a - 1; a * (a - 1); 1; c - 1; c * (c - 1); a * 1 + c * 1; a * c].
    split; [intros w; unfold bool_op_insns; etransitivity; [apply G|]; dend; reflexivity|].
    repeat (split; [reflexivity|]). erewrite look_new; [|reflexivity|reflexivity]. reflexivity.
Qed.

Lemma group_bool b b1 b2 b3 b4 b5 b6 x y op xpy xty res : in_scope b x -> in_scope b y ->
  assert_bool K kcmp x b = Some b1 -> assert_bool K kcmp y b1 = Some b2 ->
  push_add K kcmp x y b2 = Some (b3, xpy) -> push_mul K kcmp x y b3 = Some (b4, xty) ->
  (match op with
   | BAnd => Some (b4, xty)
   | BOr => push_sub K kcmp xpy xty b4
   | BXor => push1 K kcmp (NPlain (HLin (mkLC [(xpy, 1); (xty, - (1 + 1))] 0))) b4
   end) = Some (b5, res) -> mark_bool K kcmp res b5 = Some b6 ->
  exists acts, group b b6 [res] (bool_op_insns x y op (len b) ++ bool_insns res (len b5)) acts (SBool x y op).
Proof using cv_const.
  intros Ix Iy E1 E2 E3 E4 E5 E6. destruct (assert_bool_ok _ _ _ E1) as (T1 & L1). destruct (assert_bool_ok _ _ _ E2) as (T2 & L2).
  destruct (push_add_ok _ _ _ _ _ E3) as (T3 & -> & L3). destruct (push_mul_ok _ _ _ _ _ E4) as (T4 & -> & L4).
  rewrite L1 in *. replace (len b2) with (len b + 6)%nat in * by lia. replace (len b3) with (len b + 7)%nat in * by lia.
  assert (T5 : trans b4 b5 (bop_insns op (len b)) [] /\ res = bop_res op (len b) /\ len b5 = (len b + 8 + length (bop_insns op (len b)))%nat).
  { destruct op; cbn [bop_insns bop_res length].
    - destruct (trans_push1 K kcmp gate cv cv_const _ _ _ _ E5 eq_refl) as (T5 & -> & L5). split; [exact T5|]. lia.
    - destruct (push_sub_ok _ _ _ _ _ E5) as (T5 & -> & L5). split; [exact T5|]. lia.
    - injection E5 as <- <-. split; [apply trans_refl|]. lia. }
  destruct T5 as (T5 & Rs & L5). destruct (mark_bool_ok _ _ _ E6) as [T6 L6].
  pose proof (trans_trans _ _ _ _ _ _ _ _ _ _ (trans_trans _ _ _ _ _ _ _ _ _ _ (trans_trans _ _ _ _ _ _ _ _ _ _ (trans_trans _ _ _ _ _ _ _ _ _ _ (trans_trans _ _ _ _ _ _ _ _ _ _ T1 T2) T3) T4) T5) T6) as T.
  rewrite !app_nil_r in T.
  set (acts := ([((len b + 2)%nat, Asserted)] ++ [((len b + 3 + 2)%nat, Asserted)]) ++ [((len b5 + 2)%nat, Marked)]) in *.
  assert (Eo : (((((bool_insns x (len b) ++ bool_insns y (len b + 3)) ++ [I_lin2 x 1 y 1]) ++ [I_mul x y]) ++ bop_insns op (len b)) ++ bool_insns res (len b5))
    = bool_op_insns x y op (len b) ++ bool_insns res (len b5)).
  { unfold bool_op_insns. rewrite <- !app_assoc. reflexivity. }
  rewrite Eo in T. exists acts.
  assert (Run : forall (H : hints) call vals a c, len b = length vals -> nth_error vals x = Some a -> nth_error vals y = Some c ->
    exists ext, (forall w, R H call vals (bool_op_insns x y op (len b) ++ bool_insns res (len b5)) w <-> w = vals ++ ext) /\
      nth_error ext 2 = Some (a * (a - 1)) /\ nth_error ext 5 = Some (c * (c - 1)) /\ nth_error (vals ++ ext) res = Some (bop_val op a c)).
  { intros H call vals a c Lv Ea Ec. destruct (run_bool_op H call vals x y op (len b) a c Lv Ea Ec) as (ext & G1 & G2 & G3 & G4 & G5).
    rewrite <- Rs in G5. set (r := bop_val op a c) in *.
    exists (ext ++ [1; r - 1; r * (r - 1)]). split; [|split; [|split]].
    - intros w. rewrite runs_app. assert (Lr : len b5 = length (vals ++ ext)) by (rewrite app_length; lia). split.
      + intros (u & U1 & U2). apply G1 in U1. subst u. apply (run_bool H call _ _ _ r w Lr G5) in U2. now rewrite app_assoc.
      + intros ->. exists (vals ++ ext). split; [now apply G1|]. apply (run_bool H call _ _ _ r _ Lr G5). now rewrite app_assoc.
    - apply look_old. assumption.
    - apply look_old. assumption.
    - rewrite app_assoc. now apply look_old. }
  assert (As : forall a c vals ext, len b = length vals -> nth_error ext 2 = Some (a * (a - 1)) -> nth_error ext 5 = Some (c * (c - 1)) ->
    (asserted acts (vals ++ ext) <-> is_bit a /\ is_bit c)).
  { intros a c vals ext Lv G2 G5. rewrite <- !is_bit_iff. unfold acts. rewrite !asserted_app, !asserted_one.
    replace (len b + 3 + 2)%nat with (len b + 5)%nat by lia.
    rewrite (look_new vals ext (len b) 2 _ Lv G2), (look_new vals ext (len b) 5 _ Lv G5). split.
    - intros ([[= A] [= B]] & _). auto.
    - intros (-> & ->). repeat split. intros z [E|[]]. discriminate. }
  constructor; [exact T| | |discriminate|].
  - intros H call vals ms w Al S Hr Aw. pose proof (eq_sym (s_len _ _ _ _ _ S)) as Lv.
    destruct (scope_val _ _ _ _ S Ix) as (a & Ea). destruct (scope_val _ _ _ _ S Iy) as (c & Ec).
    destruct (Run H call vals a c Lv Ea Ec) as (ext & G1 & G2 & G3 & G4). apply G1 in Hr. subst w.
    apply (As a c vals ext Lv G2 G3) in Aw as [Ba Bc]. exists [bop_val op a c]. split; [|now apply at_one].
    exists a, c. repeat (split; [assumption|]). destruct op; reflexivity.
  - intros H call vals ms outs Cm S (a & c & Ea & Ec & Ba & Bc & Eo'). pose proof (eq_sym (s_len _ _ _ _ _ S)) as Lv.
    destruct (Run H call vals a c Lv Ea Ec) as (ext & G1 & G2 & G3 & G4). exists (vals ++ ext). split; [now apply G1|].
    split; [apply (As a c vals ext Lv G2 G3); auto|]. rewrite (at_one _ _ _ G4), Eo'. destruct op; reflexivity.
  - constructor; [|constructor]. unfold in_scope. rewrite L6, Rs. destruct op; cbn [bop_res bop_insns length] in *; lia.
Qed.

(** ToBinary *)
Definition no_marks (acts : list (nat * status)) : Prop := forall J, ~ In (J, Marked) acts.
Lemma binary_loop bits : forall b sum coef b' sum' coef', for_each bits (binary_bit K kcmp) (b, sum, coef) = Some (b', sum', coef') ->
  exists orig acts, trans b b' orig acts /\ no_marks acts /\
    forall (H : hints) call vals s bs, len b = length vals -> nth_error vals sum = Some s -> at_all vals bits = Some bs ->
      exists ext, (forall w, R H call vals orig w <-> w = vals ++ ext) /\ len b' = length (vals ++ ext) /\
        nth_error (vals ++ ext) sum' = Some (s + coef * bits_value bs) /\
        (asserted acts (vals ++ ext) <-> Forall is_bit bs).
Proof using cv_const.
  induction bits as [|bit bits IH]; intros b sum coef b' sum' coef' E; cbn [for_each] in E.
  - injection E as <- <- <-. exists [], []. split; [apply trans_refl|]. split; [intros J []|].
    intros H call vals s bs Lv Es Eb. injection Eb as <-. exists []. rewrite app_nil_r. split; [intros; apply runs_nil_iff|].
    split; [assumption|]. split; [rewrite Es; f_equal; cbn; ring|]. split; [constructor|intros; apply asserted_nil].
  - ob E. destruct a as [[b3 sum3] coef3]. unfold binary_bit in E0. ob E0. rename a into b1. ob E0. destruct a as [b2 sc].
    ob E0. destruct a as [b3' sum3']. injection E0 as <- <- <-.
    destruct (assert_bool_ok _ _ _ E1) as [T1 L1]. destruct (trans_push1 K kcmp gate cv cv_const _ _ _ _ E2 eq_refl) as (T2 & -> & L2).
    destruct (push_add_ok _ _ _ _ _ E3) as (T3 & -> & L3).
    destruct (IH _ _ _ _ _ _ E) as (orig & acts & T4 & Nm & G).
    pose proof (trans_trans _ _ _ _ _ _ _ _ _ _ (trans_trans _ _ _ _ _ _ _ _ _ _ (trans_trans _ _ _ _ _ _ _ _ _ _ T1 T2) T3) T4) as T.
    cbn [app] in T.
    do 2 eexists. split; [exact T|]. split; [intros J [F|F]; [discriminate|eapply Nm, F]|].
    intros H call vals s bs Lv Es Eb. unfold at_all in Eb. apply omap_cons_some in Eb as (a & bs' & Ea & Eb & ->).
    set (ext1 := [1; a - 1; a * (a - 1); a * coef; s * 1 + a * coef * 1]).
    assert (R1 : forall w, R H call vals ((bool_insns bit (len b) ++ [I_lin1 bit coef]) ++ [I_lin2 sum 1 (len b1) 1]) w <-> w = vals ++ ext1).
    { intros w. rewrite L1, Lv. unfold bool_insns. cbn [app]. dstep. dstep. dstep. dstep. dstep. dend.
      unfold ext1. replace (a * 1 + 1 * - (1)) with (a - 1) by ring. reflexivity. }
    assert (L3' : len b3' = length (vals ++ ext1)) by (rewrite app_length; cbn; lia).
    destruct (G H call (vals ++ ext1) (s * 1 + a * coef * 1) bs') as (ext & G1 & G2 & G3 & G4).
    { assumption. }
    { replace (len b2) with (len b + 4)%nat by lia. apply look_new; [assumption|reflexivity]. }
    { apply at_old. exact Eb. }
    exists (ext1 ++ ext). rewrite app_assoc. split; [|split; [assumption|split]].
    + intros w. rewrite runs_app. split.
      * intros (u & U1 & U2). apply R1 in U1. subst u. now apply G1.
      * intros ->. exists (vals ++ ext1). split; [now apply R1|now apply G1].
    + rewrite G3. f_equal. cbn [bits_value fold_right]. fold (bits_value bs'). unfold two. ring.
    + change (asserted ([((len b + 2)%nat, Asserted)] ++ acts) ((vals ++ ext1) ++ ext) <-> Forall is_bit (a :: bs')).
      rewrite asserted_app, G4, asserted_one. rewrite app2. erewrite look_new; [|exact Lv|reflexivity]. split.
      * intros [[= A] F]. constructor; [now apply is_bit_iff|assumption].
      * intros F. inversion F; subst. split; [f_equal; now apply is_bit_iff|assumption].
Qed.
Lemma group_binary b b1 b2 b3 b4 b5 x n bits sum sum' coef' diff : in_scope b x ->
  push_multi K kcmp (NHint HidToBinary [x] n) b = Some (b1, bits) -> push_const K kcmp 0 b1 = Some (b2, sum) ->
  for_each bits (binary_bit K kcmp) (b2, sum, 1) = Some (b3, sum', coef') ->
  push1 K kcmp (NPlain (HLin (mkLC [(sum', - (1)); (x, 1)] 0))) b3 = Some (b4, diff) -> assert_zero K diff b4 = Some b5 ->
  exists orig acts, group b b5 bits orig acts (SToBinary x n).
Proof using cv_const.
  intros Ix E1 E2 E3 E4 E5. unfold push_multi in E1. ob E1. injection E1 as <- <-.
  pose proof (trans_push K kcmp gate cv cv_const _ _ _ E) as T1.
  assert (L1 : len a = (len b + n)%nat). { destruct (tr_oexprs _ _ _ _ _ _ _ T1) as (es & -> & Le). unfold outs_of in Le. cbn in Le. rewrite app_length. lia. }
  cbn [hn_outputs] in *. replace (len a - n)%nat with (len b) in * by lia.
  destruct (push_const_ok _ _ _ _ E2) as (T2 & -> & L2).
  destruct (binary_loop _ _ _ _ _ _ _ E3) as (orig & acts & T3 & Nm & G).
  destruct (trans_push1 K kcmp gate cv cv_const _ _ _ _ E4 eq_refl) as (T4 & -> & L4).
  destruct (trans_assert K gate cv _ _ _ E5) as [T5 O5].
  pose proof (trans_trans _ _ _ _ _ _ _ _ _ _ (trans_trans _ _ _ _ _ _ _ _ _ _ (trans_trans _ _ _ _ _ _ _ _ _ _ (trans_trans _ _ _ _ _ _ _ _ _ _ T1 T2) T3) T4) T5) as T.
  rewrite ?app_nil_r in T. cbn [app] in T. do 2 eexists.
  assert (Run : forall (H : hints) call vals a0, len b = length vals -> nth_error vals x = Some a0 ->
    forall bs, length bs = n -> exists ext, (forall w, R H call (vals ++ bs) ((I_const 0 :: orig) ++ [I_lin2 sum' (- (1)) x 1]) w <-> w = vals ++ bs ++ ext) /\
      at_all (vals ++ bs ++ ext) (seq (len b) n) = Some bs /\
      (asserted (acts ++ [(len b3, Asserted)]) (vals ++ bs ++ ext) <-> Forall is_bit bs /\ bits_value bs = a0)).
  { intros H call vals a0 Lv Ea bs Lb.
    assert (Abs : forall t, at_all ((vals ++ bs) ++ t) (seq (len b) n) = Some bs).
    { intros t. apply at_old. rewrite Lv. apply at_seq. congruence. }
    destruct (G H call ((vals ++ bs) ++ [0]) 0 bs) as (ext & G1 & G2 & G3 & G4).
    { rewrite L2, L1, !app_length. cbn. lia. }
    { apply look_0; [rewrite app_length; lia|reflexivity]. }
    { apply Abs. }
    set (v2 := ((vals ++ bs) ++ [0]) ++ ext) in *.
    set (d := (0 + 1 * bits_value bs) * - (1) + a0 * 1).
    assert (R1 : forall w, R H call (vals ++ bs) ((I_const 0 :: orig) ++ [I_lin2 sum' (- (1)) x 1]) w <-> w = v2 ++ [d]).
    { intros w. cbn [app]. dstep. rewrite runs_app. split.
      - intros (u & U1 & U2). rewrite app_assoc in U1. apply G1 in U1. subst u. fold v2 in U2.
        apply (det_cons H call _ _ _ _ [d]) in U2; [now apply runs_nil_iff in U2|].
        intros. apply st_lin2; [exact G3|]. unfold v2. look.
      - intros ->. exists v2. split; [rewrite app_assoc; now apply G1|].
        apply (det_cons H call _ _ _ _ [d]); [|now apply runs_nil_iff].
        intros. apply st_lin2; [exact G3|]. unfold v2. look. }
    assert (Ew : v2 ++ [d] = vals ++ bs ++ ([0] ++ ext ++ [d])) by (unfold v2; rewrite <- !app_assoc; reflexivity).
    exists ([0] ++ ext ++ [d]). rewrite <- Ew. split; [assumption|]. split.
    - unfold v2. rewrite <- !app_assoc. rewrite (app_assoc vals bs). apply Abs.
    - rewrite asserted_app, asserted_one.
      assert (Fa : Forall (fun c : nat * status => (fst c < length v2)%nat) acts) by (rewrite <- G2; apply (tr_acts _ _ _ _ _ _ _ T3)).
      rewrite (asserted_prefix acts v2 [d] Fa), G4. erewrite look_0; [|exact G2|reflexivity]. unfold d. split.
      + intros [F [= Z]]. split; [assumption|]. apply (proj1 (fsub_eq K _ _)). transitivity (- (0 + 1 * bits_value bs) * - (1) - a0 * 1); [ring|].
        transitivity (- ((0 + 1 * bits_value bs) * - (1) + a0 * 1)); [ring|]. rewrite Z. ring.
      + intros [F <-]. split; [assumption|]. f_equal. ring. }
  constructor; [exact T| | | |].
  - intros H call vals ms w Al S Hr As. pose proof (eq_sym (s_len _ _ _ _ _ S)) as Lv.
    destruct (scope_val _ _ _ _ S Ix) as (a0 & Ea). apply runs_cons_iff in Hr as (bs & St & Hr).
    cbn [hn_step] in St. unfold at_all in St. cbn [omap] in St. rewrite Ea in St. cbn [obind] in St. destruct St as (vs & [= <-] & Hh & Lb).
    destruct (Run H call vals a0 Lv Ea bs Lb) as (ext & G1 & G2 & G3). apply G1 in Hr. subst w.
    apply G3 in As as [Fb Vb]. exists bs. split; [|assumption]. exists a0. auto 6.
  - intros H call vals ms outs Cm S (a0 & Ea & Lb & Hh & Fb & Vb). pose proof (eq_sym (s_len _ _ _ _ _ S)) as Lv.
    destruct (Run H call vals a0 Lv Ea outs Lb) as (ext & G1 & G2 & G3). exists (vals ++ outs ++ ext). split; [|split; [apply G3; auto|assumption]].
    apply runs_cons_iff. exists outs. split; [|now apply G1]. cbn [hn_step]. unfold at_all. cbn [omap]. rewrite Ea. cbn [obind]. eauto.
  - intros _. apply marks_none. intros J F. apply in_app_or in F as [F|[F|[]]]; [eapply Nm, F|discriminate].
  - apply Forall_forall. intros z Hz. apply in_seq in Hz. unfold in_scope. rewrite O5, L4. pose proof (trans_len _ _ _ _ T3). lia.
Qed.
End Step.
