(** The first compiler pass (Model/Normalize.v) preserves the meaning of
    circuits: assembly of the per-instruction results. *)
From Coq Require Import List Bool Arith Lia Permutation Ring Field.
Import ListNotations.
From Verif Require Import Base.Array Base.Field Model.Expr Model.Ir Model.Containers Model.Normalize
  Spec.CircuitMeaning Proofs.Expr Proofs.NormalizeExpr Proofs.NormalizeBuild Proofs.NormalizePush Proofs.NormalizeStep
  Proofs.NormalizeCircuit.
From Verif Require Model.Layered.

Section Root.
Variable K : field.
Add Field Kfield_root : (fth K).
Local Open Scope fld_scope.
Notation expr := (Expr.expr K).
Notation builder := (builder K).
Variable kcmp : K -> K -> comparison.
Variable un_eval : un_op -> K -> K -> option K.
Variable gate : nat -> list K -> K.
Variable cv : Layered.coef K -> K.
Hypothesis cv_const : forall c, cv (Layered.Constant c) = c.
Notation Sinv := (Sinv K gate).
Notation ev := (Expr.ev K gate 0).
Notation mv := (NormalizeExpr.mv K).
Notation hints := (hint_id -> list K -> list K -> Prop).
Notation step H := (hn_step K cv gate H).
Notation R H := (runs K (hn_step K cv gate H)).
Notation trans := (trans K gate cv).
Notation len b := (length (b_oexprs K b)).
Notation asserted := (asserted K).
Notation allows := (allows K un_eval).
Notation computes := (computes K un_eval).
Notation marks_ok := (marks_ok K gate cv).
Notation chain := (chain K gate cv).
Notation origs := (origs K).
Notation actss := (actss K).
Notation sstep H := (src_step K cv gate H).
Notation SR H := (runs K (src_step K cv gate H)).
Notation ito b := (b_in_to_out K b).
Local Set Default Proof Using "Type".

Lemma at_all_app (w : list K) a c r s : at_all w a = Some r -> at_all w c = Some s -> at_all w (a ++ c) = Some (r ++ s).
Proof.
  unfold at_all. revert r. induction a as [|x a IH]; intros r E1 E2; [injection E1 as <-; exact E2|].
  apply omap_cons_some in E1 as (y & t & F1 & F2 & ->). cbn [app omap]. rewrite F1. cbn [obind]. rewrite (IH _ F2 E2). reflexivity.
Qed.
Lemma asserted_first (b1 : builder) o a (r : list (list (hn_insn K) * list (nat * status))) b (H : hints) call u w :
  trans b b1 o a -> length u = len b1 -> R H call u (origs r) w ->
  (asserted (actss ((o, a) :: r)) w <-> asserted a u /\ asserted (actss r) w).
Proof.
  intros T L Hr. change (actss ((o, a) :: r)) with (a ++ actss r). rewrite asserted_app.
  destruct (runs_prefix K gate cv H call _ _ _ Hr) as (t & ->).
  rewrite (asserted_prefix K a u t); [reflexivity|]. rewrite L. apply (tr_acts _ _ _ _ _ _ _ T).
Qed.
Lemma scope_grow b b' l : (exists es, b_oexprs K b' = b_oexprs K b ++ es) -> Forall (in_scope K b) l -> Forall (in_scope K b') l.
Proof. intros (es & E) F. eapply Forall_impl; [|exact F]. unfold in_scope. intros x. rewrite E, app_length. lia. Qed.

Definition no_bool (insns : list (src_insn K)) : Prop := Forall (fun i => is_bool_op K i = false) insns.

Lemma insns_ok (nb : Prop) insns : (nb -> no_bool insns) -> forall b b2, Forall (in_scope K b) (ito b) ->
  for_each insns (process_insn K kcmp un_eval) b = Some b2 ->
  exists gs, chain nb b gs b2 /\ Forall (in_scope K b2) (ito b2) /\
    (forall H call vals ms svals w, allows H -> Sinv b vals ms -> at_all vals (ito b) = Some svals ->
       R H call vals (origs gs) w -> asserted (actss gs) w ->
       exists sw, SR H call svals insns sw /\ at_all w (ito b2) = Some sw) /\
    (forall H call vals ms svals sw, computes H -> Sinv b vals ms -> at_all vals (ito b) = Some svals ->
       SR H call svals insns sw ->
       exists w, R H call vals (origs gs) w /\ asserted (actss gs) w /\ at_all w (ito b2) = Some sw).
Proof using cv_const.
  induction insns as [|i insns IH]; intros Nb b b2 Sc E.
  - injection E as <-. exists []. split; [constructor|]. split; [assumption|]. split.
    + intros H call vals ms svals w _ _ Sim Hr _. apply runs_nil_iff in Hr. subst w. exists svals. split; [constructor|assumption].
    + intros H call vals ms svals sw _ _ Sim Hr. inversion Hr; subst. exists vals. split; [now apply runs_nil_iff|]. split; [apply asserted_nil|assumption].
  - cbn [for_each] in E. ob E. destruct (process_insn_core K kcmp un_eval _ _ _ E0) as (im & b1 & xs & Ei & Ec & ->).
    destruct (core_ok K kcmp un_eval gate cv cv_const im (src_outputs i) b b1 xs) as (o & ac & G); [eapply replace_scope; eassumption|exact Ec|].
    destruct G as [T Gs Gc Gm Gx].
    assert (Sc1 : Forall (in_scope K (with_ins K b1 xs)) (ito (with_ins K b1 xs))).
    { cbn [with_ins b_in_to_out]. rewrite (tr_ins _ _ _ _ _ _ _ T). apply Forall_app. split; [|exact Gx].
      destruct (tr_oexprs _ _ _ _ _ _ _ T) as (es & Oe & _). apply (scope_grow b); [exists es; exact Oe|assumption]. }
    destruct (IH) with (b := with_ins K b1 xs) (b2 := b2) as (gs & Ch & Sc2 & Ss & Cs); auto.
    { intros q. specialize (Nb q). inversion Nb; assumption. }
    destruct (replace_outputs K _ _ _ Ei) as [_ Bo].
    assert (Sim1 : forall H call vals svals u outs, R H call vals o u -> at_all vals (ito b) = Some svals -> at_all u xs = Some outs ->
      at_all u (ito (with_ins K b1 xs)) = Some (svals ++ outs)).
    { intros H call vals svals u outs U Sim Ex. cbn [with_ins b_in_to_out]. rewrite (tr_ins _ _ _ _ _ _ _ T).
      destruct (runs_prefix K gate cv H call _ _ _ U) as (t & ->). apply at_all_app; [now apply at_old|assumption]. }
    exists ((o, ac) :: gs). split.
    { eapply chain_cons; [exact T| |exact Ch]. intros q. apply Gm. rewrite Bo. specialize (Nb q). inversion Nb; assumption. }
    split; [assumption|]. split.
    + intros H call vals ms svals w Al S Sim Hr As. change (origs ((o, ac) :: gs)) with (o ++ origs gs) in Hr.
      apply runs_app in Hr as (u & U1 & U2).
      destruct (tr_runs _ _ _ _ _ _ _ T) as (n & _ & Tr). destruct (Tr H call vals ms S) as [_ Tr2]. destruct (Tr2 u U1) as (ms1 & _ & S1).
      apply (asserted_first b1 o ac gs b H call u w T (s_len _ _ _ _ _ S1) U2) in As as [As1 As2].
      destruct (Gs H call vals ms u Al S U1 As1) as (outs & St & Ex).
      apply (rename_step K gate cv (ito b) vals svals Sim H call i im outs Ei) in St.
      destruct (Ss H call u ms1 (svals ++ outs) w Al) as (sw & Rs & Asw); auto.
      { now apply Sinv_ins. }
      { eapply Sim1; eassumption. }
      exists sw. split; [econstructor; eassumption|assumption].
    + intros H call vals ms svals sw Cm S Sim Hr. inversion Hr as [|? ? outs ? ? St Hr']; subst.
      apply (rename_step K gate cv (ito b) vals svals Sim H call i im outs Ei) in St.
      destruct (Gc H call vals ms outs Cm S St) as (u & U1 & As1 & Ex).
      destruct (tr_runs _ _ _ _ _ _ _ T) as (n & _ & Tr). destruct (Tr H call vals ms S) as [_ Tr2]. destruct (Tr2 u U1) as (ms1 & _ & S1).
      destruct (Cs H call u ms1 (svals ++ outs) sw Cm) as (w & U2 & As2 & Asw); auto.
      { now apply Sinv_ins. }
      { eapply Sim1; eassumption. }
      exists w. split; [change (origs ((o, ac) :: gs)) with (o ++ origs gs); apply runs_app; eauto|]. split; [|assumption].
      apply (asserted_first b1 o ac gs b H call u w T (s_len _ _ _ _ _ S1) U2). auto.
Qed.

Lemma con_scope (vals svals : list K) l x y ty : at_all vals l = Some svals -> nth_error l x = Some y ->
  (src_con_holds K svals (ty, x) <-> src_con_holds K vals (ty, y)).
Proof.
  intros Sim E. destruct (rename_var K l vals svals Sim x y E) as (a & A1 & A2). unfold src_con_holds. cbn [fst snd]. rewrite A1, A2. reflexivity.
Qed.
Lemma cons_ok (nb : Prop) cs : forall b b2, Forall (in_scope K b) (ito b) ->
  for_each cs (process_con K kcmp) b = Some b2 ->
  exists gs, chain nb b gs b2 /\ ito b2 = ito b /\
    (forall (H : hints) call vals ms svals w, Sinv b vals ms -> at_all vals (ito b) = Some svals ->
       R H call vals (origs gs) w -> asserted (actss gs) w -> Forall (src_con_holds K svals) cs /\ at_all w (ito b2) = Some svals) /\
    (forall H call vals ms svals, computes H -> Sinv b vals ms -> at_all vals (ito b) = Some svals ->
       Forall (src_con_holds K svals) cs ->
       exists w, R H call vals (origs gs) w /\ asserted (actss gs) w /\ at_all w (ito b2) = Some svals).
Proof using cv_const.
  induction cs as [|c cs IH]; intros b b2 Sc E.
  - injection E as <-. exists []. split; [constructor|]. split; [reflexivity|]. split.
    + intros H call vals ms svals w _ Sim Hr _. apply runs_nil_iff in Hr. subst w. split; [constructor|assumption].
    + intros H call vals ms svals _ _ Sim _. exists vals. split; [now apply runs_nil_iff|]. split; [apply asserted_nil|assumption].
  - cbn [for_each] in E. ob E. destruct c as [ty x]. unfold process_con in E0. cbn [fst snd] in E0.
    apply obind_some in E0 as (y & Ey & E0). change (con_core K kcmp (ty, y) b = Some a) in E0.
    destruct (con_core_ok K kcmp un_eval gate cv cv_const (ty, y) b a) as (o & ac & [T Gs Gc Gm]); [|exact E0|].
    { rewrite Forall_forall in Sc. apply Sc. eapply nth_error_In, Ey. }
    assert (Sc1 : Forall (in_scope K a) (ito a)).
    { rewrite (tr_ins _ _ _ _ _ _ _ T). destruct (tr_oexprs _ _ _ _ _ _ _ T) as (es & Oe & _). apply (scope_grow b); [exists es; exact Oe|assumption]. }
    destruct (IH a b2 Sc1 E) as (gs & Ch & It & Ss & Cs).
    assert (Sim1 : forall H call vals svals u, R H call vals o u -> at_all vals (ito b) = Some svals -> at_all u (ito a) = Some svals).
    { intros H call vals svals u U Sim. rewrite (tr_ins _ _ _ _ _ _ _ T).
      destruct (runs_prefix K gate cv H call _ _ _ U) as (t & ->). now apply at_old. }
    exists ((o, ac) :: gs). split.
    { apply (chain_cons K gate cv nb b a b2 [] o ac gs T); [intros; now apply marks_none|]. rewrite with_ins_nil. exact Ch. }
    split; [rewrite It; apply (tr_ins _ _ _ _ _ _ _ T)|]. split.
    + intros H call vals ms svals w S Sim Hr As. change (origs ((o, ac) :: gs)) with (o ++ origs gs) in Hr.
      apply runs_app in Hr as (u & U1 & U2).
      destruct (tr_runs _ _ _ _ _ _ _ T) as (n & _ & Tr). destruct (Tr H call vals ms S) as [_ Tr2]. destruct (Tr2 u U1) as (ms1 & _ & S1).
      apply (asserted_first a o ac gs b H call u w T (s_len _ _ _ _ _ S1) U2) in As as [As1 As2].
      pose proof (Gs H call vals ms u S U1 As1) as Hc.
      destruct (Ss H call u ms1 svals w S1) as [F Aw]; [eapply Sim1; eassumption|assumption|assumption|].
      split; [constructor; [now apply (con_scope vals svals _ _ _ _ Sim Ey)|assumption]|assumption].
    + intros H call vals ms svals Cm S Sim F. inversion F as [|? ? Hc F']; subst.
      apply (con_scope vals svals _ _ _ _ Sim Ey) in Hc. destruct (Gc H call vals ms Cm S Hc) as (u & U1 & As1).
      destruct (tr_runs _ _ _ _ _ _ _ T) as (n & _ & Tr). destruct (Tr H call vals ms S) as [_ Tr2]. destruct (Tr2 u U1) as (ms1 & _ & S1).
      destruct (Cs H call u ms1 svals Cm S1) as (w & U2 & As2 & Asw); [eapply Sim1; eassumption|assumption|].
      exists w. split; [change (origs ((o, ac) :: gs)) with (o ++ origs gs); apply runs_app; eauto|]. split; [|assumption].
      apply (asserted_first a o ac gs b H call u w T (s_len _ _ _ _ _ S1) U2). auto.
Qed.

Lemma chain_concat (nb : Prop) a : forall b m c b', chain nb b a m -> chain nb m c b' -> chain nb b (a ++ c) b'.
Proof. intros b m c b' C1 C2. apply chain_app. eauto. Qed.

Lemma Sinv_new : Sinv (builder_new K) [0] [0].
Proof.
  constructor; cbn.
  - constructor; cbn.
    + intros e i. unfold pool_lookup. cbn. destruct (expr_eqb e e_invalid) eqn:E; [|discriminate].
      apply expr_eqb_eq in E. subst e. intros [= <-]. reflexivity.
    + reflexivity.
    + reflexivity.
    + intros [|i] e N Hn; [contradiction|]. destruct i; discriminate.
  - reflexivity.
  - reflexivity.
  - intros [|i] e Hi; [|destruct i; discriminate]. injection Hi as <-. split; [apply wf_default|]. split; [apply bounded_default|].
    cbn. f_equal. symmetry. apply (ev_default K gate 0 (mv [0])).
  - lia.
  - intros [|i] r; [discriminate|destruct i; discriminate].
  - intros e x [].
Qed.
Lemma con_find_in e l s : con_find K e l = Some s -> In e (map fst l).
Proof.
  induction l as [|[k t] l IH]; cbn; [discriminate|]. destruct (expr_eqb k e) eqn:E; [|auto]. apply expr_eqb_eq in E. subst. now left.
Qed.
Lemma emitted_iff l e : In e (emitted K kcmp l) <-> con_find K e l = Some Asserted.
Proof.
  unfold emitted. rewrite in_flat_map. split.
  - intros (x & _ & Hx). destruct (con_find K x l) as [[]|] eqn:E; cbn in Hx; try contradiction. destruct Hx as [<-|[]]. assumption.
  - intros E. exists e. split; [|rewrite E; now left]. eapply Permutation_in; [apply Permutation_sym, sort_by_perm|]. eapply con_find_in, E.
Qed.
Lemma out_of_expr_in e l x : out_of_expr K e l = Some x -> In (e, x) l.
Proof.
  induction l as [|[k y] l IH]; cbn; [discriminate|]. destruct (expr_eqb k e) eqn:E; [|auto]. apply expr_eqb_eq in E. subst. intros [= <-]. now left.
Qed.
Lemma omap_in {A B} (f : A -> option B) l : forall r, omap f l = Some r ->
  (forall x, In x l -> exists y, f x = Some y /\ In y r) /\ (forall y, In y r -> exists x, In x l /\ f x = Some y).
Proof.
  induction l as [|a l IH]; intros r E.
  - injection E as <-. split; intros ? [].
  - apply omap_cons_some in E as (y & s & E1 & E2 & ->). destruct (IH _ E2) as [I1 I2]. split.
    + intros x [<-|Hx]; [exists y; split; [assumption|now left]|]. destruct (I1 x Hx) as (z & Z1 & Z2). exists z. split; [assumption|now right].
    + intros z [<-|Hz]; [exists a; split; [now left|assumption]|]. destruct (I2 z Hz) as (x & X1 & X2). exists x. split; [now right|assumption].
Qed.
Lemma at_seq0 (ins : list K) : at_all (0 :: ins) (0%nat :: seq 1 (length ins)) = Some (0 :: ins).
Proof. apply (at_seq K [] (0 :: ins) (S (length ins))). reflexivity. Qed.

Lemma process_circuit_ok c c' : process_circuit K kcmp un_eval c = Some c' ->
  (forall H call ins outs, no_bool (c_insns c) -> allows H ->
     hn_realises K cv gate H call c' ins outs -> src_realises K cv gate H call c ins outs) /\
  (forall H call ins outs, computes H ->
     src_realises K cv gate H call c ins outs -> hn_realises K cv gate H call c' ins outs).
Proof using cv_const.
  unfold process_circuit. intros E. ob E. rename a into b0. ob E. rename a into b1. ob E. rename a into b2. ob E. rename a into cvars. ob E. rename a into outv.
  injection E as <-. unfold add_input in E0. ob E0. injection E0 as <-. rename a into bi.
  destruct (add_out_vars_frame K _ _ _ E) as (Fc & Fi & (es & Fo & Fl) & _).
  set (b0 := with_ins K bi (seq 1 (c_inputs c))) in *.
  assert (Ini : forall ins, length ins = c_inputs c -> b_insns K bi = [] /\ exists ms, Sinv b0 (0 :: ins) ms).
  { intros ins L. destruct (add_out_vars_ok K gate _ _ _ [0] [0] ins E Sinv_new L) as (I & ms & _ & S). split; [exact I|].
    exists ms. apply Sinv_ins. exact S. }
  assert (Cons0 : b_cons K b0 = []) by exact Fc.
  assert (Ito0 : ito b0 = 0%nat :: seq 1 (c_inputs c)) by (cbn [b0 with_ins b_in_to_out]; rewrite Fi; reflexivity).
  assert (Sc0 : Forall (in_scope K b0) (ito b0)).
  { rewrite Ito0. apply Forall_forall. intros x Hx. unfold in_scope. cbn [b0 with_ins b_oexprs]. rewrite Fo, app_length, Fl. cbn.
    destruct Hx as [<-|Hx]; [lia|]. apply in_seq in Hx. lia. }
  destruct (insns_ok (no_bool (c_insns c)) (c_insns c) (fun q => q) b0 b1 Sc0 E1) as (g1 & C1 & Sc1 & Ss1 & Cs1).
  destruct (cons_ok (no_bool (c_insns c)) (c_cons c) b1 b2 Sc1 E2) as (g2 & C2 & It2 & Ss2 & Cs2).
  pose proof (chain_concat _ _ _ _ _ _ C1 C2) as C. set (gs := g1 ++ g2) in *.
  destruct (chain_trans K gate cv _ _ _ _ C) as (xs & T).
  destruct (tr_runs _ _ _ _ _ _ _ T) as (new & Ni & Tr). cbn [with_ins b_insns] in Ni.
  change (b_insns K b0) with (b_insns K bi) in Ni.
  assert (ConsF : b_cons K b2 = acts_on K (b_oexprs K b2) (actss gs) []).
  { rewrite (tr_cons _ _ _ _ _ _ _ T). cbn [with_ins b_cons]. fold b0. change (b_cons K bi) with (b_cons K b0). rewrite Cons0. reflexivity. }
  assert (Mid : forall (H : hints) call ins u w ms, Sinv b0 (0 :: ins) ms -> R H call (0 :: ins) (origs g1) u -> R H call u (origs g2) w ->
    exists ms1, Sinv b1 u ms1 /\ (asserted (actss gs) w <-> asserted (actss g1) u /\ asserted (actss g2) w)).
  { intros H call ins u w ms S U1 U2. destruct (chain_sinv K gate cv _ _ _ _ H call _ _ u C1 S U1) as (ms1 & S1). exists ms1. split; [assumption|].
    unfold gs. rewrite actss_app, asserted_app. destruct (runs_prefix K gate cv H call _ _ _ U2) as (t & ->).
    rewrite (asserted_prefix K (actss g1) u t); [reflexivity|]. rewrite (s_len _ _ _ _ _ S1). apply (acts_bound K gate cv _ _ _ _ C1). }
  split.
  - intros H call ins outs Nb Al (Li & w & Rw & Fz & Ao). cbn [c_insns c_cons c_outs c_inputs] in *. split; [assumption|].
    destruct (Ini ins Li) as (Ib & ms & S). rewrite Ib in Ni. cbn [app] in Ni. rewrite Ni in Rw.
    destruct (Tr H call (0 :: ins) ms (Sinv_ins K gate _ _ _ _ S)) as [Tr1 Tr2]. apply Tr1 in Rw.
    destruct (Tr2 w Rw) as (msw & _ & Sw).
    assert (As : asserted (actss gs) w).
    { apply (chain_asserted K gate cv (no_bool (c_insns c)) b0 gs b2 H call (0 :: ins) ms w Nb C Cons0 S Rw).
      intros e x Ef Ex. apply emitted_iff in Ef. destruct (proj1 (omap_in _ _ _ E3) e Ef) as (y & Oy & Iy).
      rewrite Forall_forall in Fz. specialize (Fz y Iy). unfold zero_con_holds in Fz.
      apply out_of_expr_in, (s_e2o _ _ _ _ _ Sw) in Oy. rewrite (sinv_lookup K gate _ _ _ _ _ Sw Oy) in Fz.
      rewrite (sinv_lookup K gate _ _ _ _ _ Sw Ex). assumption. }
    unfold gs in Rw. rewrite origs_app in Rw. apply runs_app in Rw as (u & U1 & U2).
    destruct (Mid H call ins u w ms S U1 U2) as (ms1 & S1 & As'). apply As' in As as [As1 As2].
    destruct (Ss1 H call (0 :: ins) ms (0 :: ins) u Al S) as (sw & Rs & Asw); auto.
    { rewrite Ito0, <- Li. apply at_seq0. }
    destruct (Ss2 H call u ms1 sw w S1 Asw U2 As2) as [Fc' Aw].
    exists sw. split; [assumption|]. split; [assumption|].
    destruct (rename_vars K (ito b2) w sw Aw (c_outs c) outv E4) as [-> _]. assumption.
  - intros H call ins outs Cm (Li & sw & Rs & Fcs & Ao). split; [assumption|]. cbn [c_insns c_cons c_outs c_inputs] in *.
    destruct (Ini ins Li) as (Ib & ms & S). rewrite Ib in Ni. cbn [app] in Ni. rewrite Ni.
    destruct (Cs1 H call (0 :: ins) ms (0 :: ins) sw Cm S) as (u & U1 & As1 & Au); auto.
    { rewrite Ito0, <- Li. apply at_seq0. }
    destruct (chain_sinv K gate cv _ _ _ _ H call _ _ u C1 S U1) as (ms1 & S1).
    destruct (Cs2 H call u ms1 sw Cm S1 Au Fcs) as (w & U2 & As2 & Aw).
    destruct (Mid H call ins u w ms S U1 U2) as (_ & _ & As').
    assert (As : asserted (actss gs) w) by (apply As'; auto).
    assert (Rw : R H call (0 :: ins) (origs gs) w) by (unfold gs; rewrite origs_app; apply runs_app; eauto).
    destruct (Tr H call (0 :: ins) ms (Sinv_ins K gate _ _ _ _ S)) as [Tr1 Tr2]. destruct (Tr2 w Rw) as (msw & _ & Sw).
    exists w. split; [now apply Tr1|]. split.
    + apply Forall_forall. intros y Hy. destruct (proj2 (omap_in _ _ _ E3) y Hy) as (e & Ee & Oy). apply emitted_iff in Ee.
      rewrite ConsF in Ee. apply acts_on_from in Ee as [D|(x & Hx & Ex)]; [discriminate|].
      apply out_of_expr_in, (s_e2o _ _ _ _ _ Sw) in Oy. unfold zero_con_holds. rewrite (sinv_lookup K gate _ _ _ _ _ Sw Oy).
      rewrite <- (sinv_lookup K gate _ _ _ _ _ Sw Ex). now apply As.
    + destruct (rename_vars K (ito b2) w sw Aw (c_outs c) outv E4) as [<- _]. assumption.
Qed.

(** *** root circuits *)
Lemma hl_step_mono (c1 c2 : calls K) vals i outs : (forall id a r, c1 id a r -> c2 id a r) -> hl_step K cv gate c1 vals i outs -> hl_step K cv gate c2 vals i outs.
Proof. intros M. destruct i; cbn; auto. intros (vs & A & C & L). eauto. Qed.
Lemma hn_step_mono H (c1 c2 : calls K) vals i outs : (forall id a r, c1 id a r -> c2 id a r) -> step H c1 vals i outs -> step H c2 vals i outs.
Proof. intros M. destruct i; cbn; auto. now apply hl_step_mono. Qed.
Lemma src_step_mono H (c1 c2 : calls K) vals i outs : (forall id a r, c1 id a r -> c2 id a r) -> sstep H c1 vals i outs -> sstep H c2 vals i outs.
Proof. intros M. destruct i; cbn; auto. now apply hn_step_mono. Qed.
Lemma runs_mono {I} (st : calls K -> list K -> I -> list K -> Prop) (c1 c2 : calls K) : 
  (forall vals i outs, st c1 vals i outs -> st c2 vals i outs) -> forall l v w, runs K st c1 v l w -> runs K st c2 v l w.
Proof. intros M l. induction l as [|i l IH]; intros v w Hr; inversion Hr; subst; [constructor|econstructor; eauto]. Qed.

Lemma find_processed cs cs' id : omap (fun kc : nat * circuit (src_insn K) src_con =>
    let* c := process_circuit K kcmp un_eval (snd kc) in Some (fst kc, c)) cs = Some cs' ->
  match find_circuit id cs, find_circuit id cs' with
  | Some c, Some c' => process_circuit K kcmp un_eval c = Some c'
  | None, None => True
  | _, _ => False
  end.
Proof.
  revert cs'. induction cs as [|[k c] cs IH]; intros cs' E.
  - injection E as <-. exact I.
  - apply omap_cons_some in E as (y & s & E1 & E2 & ->). cbn [snd fst] in E1. ob E1. injection E1 as <-. cbn [find_circuit].
    destruct (k =? id)%nat; [assumption|apply IH; assumption].
Qed.
Definition root_no_bool (rc : root_circuit (src_insn K) src_con) : Prop :=
  forall id c, find_circuit id (rc_circuits rc) = Some c -> no_bool (c_insns c).
Theorem process_root_ok rc rc' : process_root K kcmp un_eval rc = Some rc' ->
  (forall H ins outs, root_no_bool rc -> allows H -> hn_root_realises K cv gate H rc' ins outs -> src_root_realises K cv gate H rc ins outs) /\
  (forall H ins outs, computes H -> src_root_realises K cv gate H rc ins outs -> hn_root_realises K cv gate H rc' ins outs).
Proof using cv_const.
  unfold process_root. intros E. ob E. injection E as <-. rename a into cs'. split.
  - intros H ins outs Nb Al (d & all & Sd & Ea). exists d, all. split; [|exact Ea]. clear Ea. revert Sd.
    cut (forall d id x y, sub_realises K (hn_step K cv gate H) (zero_con_holds K) (mkRoot (rc_npub rc) (rc_zeroes rc) cs') d id x y ->
      sub_realises K (src_step K cv gate H) (src_con_holds K) rc d id x y); [auto|].
    clear d. induction d as [|d IH]; intros id x y Sd; [exact Sd|]. destruct Sd as (c' & Fc & Rc). cbn [rc_circuits] in Fc.
    pose proof (find_processed _ _ id E0) as G. rewrite Fc in G. destruct (find_circuit id (rc_circuits rc)) as [c|] eqn:Ec; [|contradiction].
    exists c. split; [assumption|]. destruct (process_circuit_ok c c' G) as [Ps _].
    destruct (Ps H _ x y (Nb id c Ec) Al Rc) as (L & w & Rw & Fz & Ao). split; [assumption|]. exists w. split; [|auto].
    eapply runs_mono; [|exact Rw]. intros. eapply src_step_mono; [|eassumption]. exact IH.
  - intros H ins outs Cm (d & all & Sd & Ea). exists d, all. split; [|exact Ea]. clear Ea. revert Sd.
    cut (forall d id x y, sub_realises K (src_step K cv gate H) (src_con_holds K) rc d id x y ->
      sub_realises K (hn_step K cv gate H) (zero_con_holds K) (mkRoot (rc_npub rc) (rc_zeroes rc) cs') d id x y); [auto|].
    clear d. induction d as [|d IH]; intros id x y Sd; [exact Sd|]. destruct Sd as (c & Fc & Rc).
    pose proof (find_processed _ _ id E0) as G. rewrite Fc in G. destruct (find_circuit id cs') as [c'|] eqn:Ec; [|contradiction].
    exists c'. split; [exact Ec|]. destruct (process_circuit_ok c c' G) as [_ Pc].
    destruct (Pc H _ x y Cm Rc) as (L & w & Rw & Fz & Ao). split; [assumption|]. exists w. split; [|auto].
    eapply runs_mono; [|exact Rw]. intros. eapply hn_step_mono; [|eassumption]. exact IH.
Qed.
End Root.
