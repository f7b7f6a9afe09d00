(** Sequences of pushed instructions in the first compiler pass
    (Model/Normalize.v): what was asked for and what was emitted have the same
    runs. *)
From Coq Require Import List Bool Arith Lia Permutation Sorted Ring Field.
Import ListNotations.
From Verif Require Import Base.Array Base.Field Model.Expr Model.Ir Model.Containers Model.Normalize
  Spec.CircuitMeaning Proofs.Expr Proofs.NormalizeExpr Proofs.NormalizeBuild.
From Verif Require Model.Layered.

Section Push.
Variable K : field.
Add Field Kfield_push : (fth K).
Local Open Scope fld_scope.
Notation expr := (Expr.expr K).
Notation builder := (builder K).
Variable kcmp : K -> K -> comparison.
Variable gate : nat -> list K -> K.
Variable cv : Layered.coef K -> K.
Hypothesis cv_const : forall c, cv (Layered.Constant c) = c.
Notation Sinv := (Sinv K gate).
Notation ev := (Expr.ev K gate 0).
Notation mv := (NormalizeExpr.mv K).
Notation extends := (NormalizeExpr.extends K).
Notation good := (NormalizeExpr.good K gate).
Notation hints := (hint_id -> list K -> list K -> Prop).
Notation step H := (hn_step K cv gate H).
Notation R H := (runs K (hn_step K cv gate H)).
Local Set Default Proof Using "Type".

Lemma omap_some_in {A B} (f : A -> option B) l : forall r, omap f l = Some r ->
  forall i y, nth_error r i = Some y -> exists x, nth_error l i = Some x /\ f x = Some y.
Proof.
  induction l as [|a l IH]; cbn; intros r E i y Hy.
  - injection E as <-. destruct i; discriminate.
  - ob E. ob E. injection E as <-. destruct i; cbn in *; [injection Hy as <-; eauto|eauto].
Qed.
Lemma omap_cons_some {A B} (f : A -> option B) x l r : omap f (x :: l) = Some r -> exists y s, f x = Some y /\ omap f l = Some s /\ r = y :: s.
Proof. cbn. intros E. ob E. ob E. injection E as <-. eauto 6. Qed.

Lemma sinv_lookup (b : builder) vals ms x e : Sinv b vals ms -> nth_error (b_oexprs K b) x = Some e ->
  nth_error vals x = Some (ev (mv ms) e).
Proof. intros S E. apply (s_val _ _ _ _ _ S _ _ E). Qed.
Lemma sinv_zero (b : builder) vals ms : Sinv b vals ms -> nth_error vals 0 = Some 0.
Proof. intros S. rewrite (sinv_lookup _ _ _ _ _ S (s_zero _ _ _ _ _ S)). f_equal. apply ev_default. Qed.

(** *** one pushed instruction *)
Definition push_result (b b' : builder) (i : hn_insn K) : Prop :=
  b_cons K b' = b_cons K b /\ b_in_to_out K b' = b_in_to_out K b /\
  (exists es, b_oexprs K b' = b_oexprs K b ++ es /\ length es = hn_outputs i) /\
  exists i', b_insns K b' = b_insns K b ++ [i'] /\
    forall (H : hints) call vals ms, Sinv b vals ms ->
      (forall outs, step H call vals i' outs <-> step H call vals i outs) /\
      (forall outs, step H call vals i outs -> exists ms', extends ms ms' /\ Sinv b' (vals ++ outs) ms').

Lemma push_det b b' i (f : list K -> list K -> option K) e p :
  hn_outputs i = 1%nat ->
  fix_mid_to_out K 1 (mkB K (b_cons K b) (b_oexprs K b ++ [e]) p (b_mid_to_out K b) (b_expr_to_out K b) (b_in_to_out K b) (b_insns K b ++ [i])) = Some b' ->
  (forall vals ms, Sinv b vals ms -> exists v, good p ms e v /\
     forall (H : hints) call outs, step H call vals i outs <-> outs = [v]) ->
  push_result b b' i.
Proof.
  intros O E G. destruct (push_expr_ok K gate b e p i b' E) as (F1 & F2 & F3 & i' & F4 & F5).
  split; [assumption|]. split; [assumption|]. split; [exists [e]; split; [assumption|now rewrite O]|].
  exists i'. split; [assumption|]. intros H call vals ms S.
  destruct (G vals ms S) as (v & Gv & Sv). destruct (F5 vals ms v S Gv) as [X I].
  split.
  - intros outs. rewrite Sv. destruct I as [->|(lc & -> & V)]; [apply Sv|]. cbn [hn_step hl_step]. split.
    + intros (w & E1 & ->). congruence.
    + intros ->. eauto.
  - intros outs. rewrite Sv. intros ->. exact X.
Qed.
Lemma push_fresh b b1 b' i :
  (forall (H : hints) call vals outs, step H call vals i outs -> length outs = hn_outputs i) ->
  (forall vals ms, Sinv b vals ms -> exists ms', extends ms ms' /\ Sinv b1 vals ms') ->
  b_cons K b1 = b_cons K b -> b_in_to_out K b1 = b_in_to_out K b -> b_oexprs K b1 = b_oexprs K b ->
  b_insns K b1 = b_insns K b ++ [i] ->
  add_out_vars K (hn_outputs i) b1 = Some b' -> push_result b b' i.
Proof.
  intros Ln Sb C1 C2 C3 C4 E. destruct (add_out_vars_frame K _ _ _ E) as (F1 & F2 & F3 & F4).
  split; [congruence|]. split; [congruence|]. split; [rewrite <- C3; exact F3|].
  assert (Ex : exists i', b_insns K b' = b_insns K b ++ [i']).
  { rewrite C4 in F4. destruct F4 as [->|(x & Rl)]; [eauto|]. apply replace_last_app in Rl. eauto. }
  destruct Ex as (i' & Ei). exists i'. split; [assumption|]. intros H call vals ms S.
  destruct (Sb vals ms S) as (ms1 & X1 & S1).
  destruct (add_out_vars_ok K gate _ _ _ vals ms1 (repeat 0 (hn_outputs i)) E S1 (repeat_length _ _)) as [I _].
  rewrite I, C4 in Ei. apply app_inj_tail in Ei as [_ <-]. split; [intros; reflexivity|].
  intros outs St. destruct (add_out_vars_ok K gate _ _ _ vals ms1 outs E S1 (Ln _ _ _ _ St)) as (_ & ms' & X & S').
  exists ms'. split; [eapply extends_trans; eassumption|assumption].
Qed.
Lemma Sinv_insns b l vals ms : Sinv b vals ms -> Sinv (with_insns K b l) vals ms.
Proof. intros []. constructor; assumption. Qed.
Lemma Sinv_cons b l vals ms : Sinv b vals ms -> Sinv (with_cons K b l) vals ms.
Proof. intros []. constructor; assumption. Qed.
Lemma Sinv_ins b l vals ms : Sinv b vals ms -> Sinv (with_ins K b l) vals ms.
Proof. intros []. constructor; assumption. Qed.
Lemma hl_outputs_len (H : hints) call vals i outs : step H call vals i outs -> length outs = hn_outputs i.
Proof.
  destruct i as [[lc|xs|c|id ins n|g ins]|h ins n]; cbn.
  - intros (v & _ & ->); reflexivity.
  - intros (v & _ & ->); reflexivity.
  - intros ->; reflexivity.
  - intros (vs & _ & _ & L); exact L.
  - intros (v & _ & ->); reflexivity.
  - intros (vs & _ & _ & L); exact L.
Qed.

Lemma lin_terms_ok b vals ms (ts : list (nat * K)) : forall vs, Sinv b vals ms ->
  omap (fun t : nat * K => let* e := nth_error (b_oexprs K b) (fst t) in Some (e, snd t)) ts = Some vs ->
  vs_ok K (length ms) vs /\
  omap (fun t : nat * K => let* v := nth_error vals (fst t) in Some (v * snd t)) ts = Some (map (fun v => ev (mv ms) (fst v) * snd v) vs).
Proof.
  induction ts as [|t ts IH]; intros vs S E.
  - injection E as <-. split; [constructor|reflexivity].
  - apply omap_cons_some in E as (y & s & E1 & E2 & ->). ob E1. injection E1 as <-.
    destruct (IH s S E2) as [O V]. destruct (s_val _ _ _ _ _ S _ _ E) as (W & B & Va).
    split; [constructor; [split; assumption|assumption]|]. cbn [omap map fst snd]. rewrite Va. cbn [obind]. rewrite V. reflexivity.
Qed.
Lemma sum_comm_ext m (vs : list (expr * K)) : fsum (map (fun v => ev m (fst v) * snd v) vs) = vs_sum K gate m vs.
Proof. unfold vs_sum. apply fsum_ext. intros. ring. Qed.

Lemma omap_exprs_ok b vals ms xs : forall es, Sinv b vals ms -> omap (nth_error (b_oexprs K b)) xs = Some es ->
  at_all vals xs = Some (map (ev (mv ms)) es) /\ Forall (fun e => wf K e /\ bounded K (length ms) e) es.
Proof.
  induction xs as [|x xs IH]; intros es S E.
  - injection E as <-. split; [reflexivity|constructor].
  - apply omap_cons_some in E as (y & s & E1 & E2 & ->). destruct (IH s S E2) as [V F].
    destruct (s_val _ _ _ _ _ S _ _ E1) as (W & B & Va). unfold at_all in *. cbn [omap map]. rewrite Va. cbn [obind]. rewrite V.
    split; [reflexivity|constructor; auto].
Qed.
Lemma fprod_perm (l l' : list K) : Permutation l l' -> fprod l = fprod l'.
Proof. unfold fprod. induction 1; cbn; try congruence; ring. Qed.
Lemma mul_rest_ok r : forall p ms cur p' cur', NormalizeExpr.pinv K gate p ms -> wf K cur -> bounded K (length ms) cur ->
  Forall (fun e => wf K e /\ bounded K (length ms) e) r ->
  for_each r (fun e s => let '(p, cur) := s in mul_two_expr K kcmp cur e p) (p, cur) = Some (p', cur') ->
  good p' ms cur' (ev (mv ms) cur * fprod (map (ev (mv ms)) r)).
Proof.
  induction r as [|e r IH]; intros p ms cur p' cur' P W B F E; cbn [for_each] in E.
  - injection E as <- <-. exists ms. split; [apply extends_refl|]. repeat (split; [assumption|]). cbn. ring.
  - ob E. destruct a as [p1 c1]. inversion F as [|? ? [We Be] F']; subst.
    destruct (mul_two_ok K kcmp gate _ _ _ ms _ _ P W We B Be E0) as (ms1 & X1 & P1 & W1 & B1 & V1).
    assert (F1 : Forall (fun e => wf K e /\ bounded K (length ms1) e) r).
    { eapply Forall_impl; [|exact F']. intros ? [? ?]. split; [assumption|]. eapply bounded_le; [apply extends_length, X1|assumption]. }
    destruct (IH _ ms1 _ _ _ P1 W1 B1 F1 E) as (ms2 & X2 & P2 & W2 & B2 & V2).
    exists ms2. split; [eapply extends_trans; eassumption|]. repeat (split; [assumption|]).
    rewrite V2, V1. cbn [map fprod fold_right]. fold (fprod (map (ev (mv ms)) r)).
    replace (map (ev (mv ms1)) r) with (map (ev (mv ms)) r); [unfold fprod; ring|].
    apply map_ext_in. intros x Hx. symmetry. apply ev_extends; [assumption|]. rewrite Forall_forall in F'. now apply F'.
Qed.

Lemma push_ok i b b' : push K kcmp i b = Some b' -> push_result b b' i.
Proof using cv_const.
  unfold push. intros E.
  set (b0 := with_insns K b (b_insns K b ++ [i])) in *.
  assert (S0 : forall vals ms, Sinv b vals ms -> exists ms', extends ms ms' /\ Sinv b0 vals ms').
  { intros vals ms S. exists ms. split; [apply extends_refl|now apply Sinv_insns]. }
  destruct i as [[lc|xs|c|id ins n|g ins]|h ins n]; cbn [execute_out] in E.
  - unfold add_lin_comb in E. ob E. ob E. destruct a0 as [p e].
    apply (push_det b b' _ (fun _ _ => None) e p); [reflexivity|exact E|].
    intros vals ms S. change (b_oexprs K b0) with (b_oexprs K b) in E0.
    destruct (lin_terms_ok b vals ms _ _ S E0) as [O V].
    assert (O' : vs_ok K (length ms) (a ++ (if feqb (lc_const lc) 0 then [] else [(e_const (lc_const lc), 1)]))).
    { apply Forall_app. split; [assumption|]. destruct (feqb (lc_const lc) 0); [constructor|]. constructor; [|constructor].
      cbn [fst]. split; [apply wf_const|apply bounded_const]. }
    eexists. split; [eapply lin_comb_inner_ok; [apply (s_pool _ _ _ _ _ S)|exact O'|exact E1]|].
    intros H call outs. cbn [hn_step hl_step]. unfold lc_value. rewrite V. cbn [obind].
    assert (Ev : lc_const lc + fsum (map (fun v => ev (mv ms) (fst v) * snd v) a) =
       vs_sum K gate (mv ms) (a ++ (if feqb (lc_const lc) 0 then [] else [(e_const (lc_const lc), 1)]))).
    { rewrite sum_comm_ext. unfold vs_sum. rewrite map_app, fsum_app. destruct (feqb (lc_const lc) 0) eqn:Ec.
      - apply feqb_eq in Ec. rewrite Ec. cbn [map fsum fold_right]. match goal with |- _ + ?A = ?B + _ => change B with A end. ring.
      - cbn [map fsum fold_right fst snd]. rewrite ev_const. match goal with |- _ + ?A = ?B + _ => change B with A end. ring. }
    rewrite Ev. split; [intros (v & [= <-] & ->); reflexivity|intros ->; eauto].
  - unfold add_mul_vec in E. ob E. ob E. change (b_oexprs K b0) with (b_oexprs K b) in E1.
    destruct (sort_by (expr_cmp kcmp) a0) as [|e0 [|e1 r]] eqn:Es; try discriminate.
    ob E. ob E. destruct a1 as [p1 c1]. destruct a2 as [p e].
    apply (push_det b b' _ (fun _ _ => None) e p); [reflexivity|exact E|].
    intros vals ms S. destruct (omap_exprs_ok b vals ms _ _ S E1) as [V F].
    assert (Pm : Permutation (e0 :: e1 :: r) a0) by (rewrite <- Es; apply sort_by_perm).
    assert (F' : Forall (fun e => wf K e /\ bounded K (length ms) e) (e0 :: e1 :: r)).
    { apply Forall_forall. intros x Hx. rewrite Forall_forall in F. apply F. eapply Permutation_in; [exact Pm|exact Hx]. }
    inversion F' as [|? ? [W0 B0] F1]; subst. inversion F1 as [|? ? [W1 B1] F2]; subst.
    destruct (mul_two_ok K kcmp gate _ _ _ ms _ _ (s_pool _ _ _ _ _ S) W0 W1 B0 B1 E2) as (ms1 & X1 & P1 & Wc & Bc & Vc).
    assert (F3 : Forall (fun e => wf K e /\ bounded K (length ms1) e) r).
    { eapply Forall_impl; [|exact F2]. intros ? [? ?]. split; [assumption|]. eapply bounded_le; [apply extends_length, X1|assumption]. }
    pose proof (mul_rest_ok r _ ms1 _ _ _ P1 Wc Bc F3 E3) as Gr.
    eexists. split; [eapply good_trans; [exact X1|exact Gr]|].
    intros H call outs. cbn [hn_step hl_step]. rewrite V.
    assert (Ep : fprod (map (ev (mv ms)) a0) = ev (mv ms1) c1 * fprod (map (ev (mv ms1)) r)).
    { rewrite Vc. rewrite <- (fprod_perm _ _ (Permutation_map (ev (mv ms)) Pm)).
      replace (map (ev (mv ms1)) r) with (map (ev (mv ms)) r); [unfold fprod; cbn [map fold_right]; ring|].
      apply map_ext_in. intros x Hx. symmetry. apply ev_extends; [assumption|]. rewrite Forall_forall in F2. now apply F2. }
    rewrite <- Ep. split; [intros (v & [= <-] & ->); reflexivity|intros ->; eauto].
  - destruct c as [c| |k]; cbn [execute_out] in E.
    + unfold add_const in E. apply (push_det b b' _ (fun _ _ => None) (e_const c) (b_mids K b)); [reflexivity|exact E|].
      intros vals ms S. exists c. split.
      * exists ms. split; [apply extends_refl|]. split; [apply (s_pool _ _ _ _ _ S)|]. split; [apply wf_const|].
        split; [apply bounded_const|]. apply ev_const.
      * intros. cbn [hn_step hl_step]. rewrite cv_const. reflexivity.
    + apply (push_fresh b b0 b'); auto. intros; now apply hl_outputs_len with (1 := H0).
    + apply (push_fresh b b0 b'); auto. intros; now apply hl_outputs_len with (1 := H0).
  - unfold sub_circuit_call in E. ob E.
    assert (Loop : forall l x y, for_each l (fun i b => let* e := nth_error (b_oexprs K b) i in
        let* r := to_really_single K (b_mids K b) e in Some (with_mids K b (fst r))) x = Some y ->
      b_cons K y = b_cons K x /\ b_in_to_out K y = b_in_to_out K x /\ b_oexprs K y = b_oexprs K x /\ b_insns K y = b_insns K x /\
      forall vals ms, Sinv x vals ms -> exists ms', extends ms ms' /\ Sinv y vals ms').
    { induction l as [|k l IH]; cbn [for_each]; intros x y El.
      - injection El as <-. repeat (split; [reflexivity|]). intros vals ms S. exists ms. split; [apply extends_refl|assumption].
      - ob El. ob E1. ob E1. destruct a2 as [p e']. injection E1 as <-. destruct (IH _ _ El) as (G1 & G2 & G3 & G4 & G5).
        cbn in G1, G2, G3, G4. repeat (split; [assumption|]). intros vals ms S.
        destruct (s_val _ _ _ _ _ S _ _ E2) as (W & B & _).
        destruct (to_really_single_ok K gate _ ms _ _ _ (s_pool _ _ _ _ _ S) W B E3) as (ms1 & X1 & P1).
        destruct (G5 vals ms1) as (ms2 & X2 & S2).
        { cbn [fst]. apply Sinv_pool with (ms := ms); assumption. }
        exists ms2. split; [eapply extends_trans; eassumption|assumption]. }
    destruct (Loop _ _ _ E0) as (G1 & G2 & G3 & G4 & G5).
    apply (push_fresh b a b'); auto.
    + intros; now apply hl_outputs_len with (1 := H0).
    + intros vals ms S. apply G5. now apply Sinv_insns.
  - apply (push_fresh b b0 b'); auto. intros; now apply hl_outputs_len with (1 := H0).
  - apply (push_fresh b b0 b'); auto. intros; now apply hl_outputs_len with (1 := H0).
Qed.

(** *** sequences *)
Lemma runs_cons_iff (H : hints) call i a v w : R H call v (i :: a) w <-> exists outs, step H call v i outs /\ R H call (v ++ outs) a w.
Proof. split; [intros Hr; inversion Hr; subst; eauto|]. intros (o & H1 & H2). econstructor; eassumption. Qed.
Lemma runs_nil_iff (H : hints) call v w : R H call v [] w <-> w = v.
Proof. split; [intros Hr; now inversion Hr|]. intros ->. constructor. Qed.
Lemma runs_app (H : hints) call a : forall v w c, R H call v (a ++ c) w <-> exists u, R H call v a u /\ R H call u c w.
Proof.
  induction a as [|i a IH]; intros v w c; cbn [app].
  - split; [intros Hr; exists v; split; [constructor|assumption]|]. intros (u & H1 & H2). apply runs_nil_iff in H1. subst. assumption.
  - split.
    + intros Hr. apply runs_cons_iff in Hr as (o & H1 & Hr). apply IH in Hr as (u & H2 & H3). exists u. split; [econstructor; eassumption|assumption].
    + intros (u & H1 & H2). apply runs_cons_iff in H1 as (o & H0 & H1). econstructor; [eassumption|]. apply IH. eauto.
Qed.
Lemma runs_prefix (H : hints) call a : forall v w, R H call v a w -> exists t, w = v ++ t.
Proof.
  induction a as [|i a IH]; intros v w Hr; [apply runs_nil_iff in Hr; subst; exists []; now rewrite app_nil_r|].
  apply runs_cons_iff in Hr as (o & _ & Hr). apply IH in Hr as (t & ->). exists (o ++ t). now rewrite app_assoc.
Qed.

Definition act (oes : list expr) (l : list (expr * status)) (a : nat * status) : list (expr * status) :=
  match nth_error oes (fst a) with
  | None => l
  | Some e => match snd a with
              | Asserted => match con_find K e l with Some _ => l | None => con_set K e Asserted l end
              | Marked => con_set K e Marked l
              end
  end.
Definition acts_on (oes : list expr) (acts : list (nat * status)) (l : list (expr * status)) := fold_left (act oes) acts l.

Definition outs_of (l : list (hn_insn K)) : nat := list_sum (map hn_outputs l).
Record trans (b b' : builder) (orig : list (hn_insn K)) (acts : list (nat * status)) : Prop := {
  tr_ins : b_in_to_out K b' = b_in_to_out K b;
  tr_oexprs : exists es, b_oexprs K b' = b_oexprs K b ++ es /\ length es = outs_of orig;
  tr_cons : b_cons K b' = acts_on (b_oexprs K b') acts (b_cons K b);
  tr_acts : Forall (fun a => (fst a < length (b_oexprs K b'))%nat) acts;
  tr_runs : exists new, b_insns K b' = b_insns K b ++ new /\
    forall (H : hints) call vals ms, Sinv b vals ms ->
      (forall w, R H call vals new w <-> R H call vals orig w) /\
      (forall w, R H call vals orig w -> exists ms', extends ms ms' /\ Sinv b' w ms') }.

Lemma trans_refl b : trans b b [] [].
Proof.
  constructor; try reflexivity.
  - exists []. now rewrite app_nil_r.
  - constructor.
  - exists []. split; [now rewrite app_nil_r|]. intros H call vals ms S. split; [reflexivity|].
    intros w Hr. apply runs_nil_iff in Hr. subst w. exists ms. split; [apply extends_refl|assumption].
Qed.
Lemma acts_on_ext oes es acts : Forall (fun a => (fst a < length oes)%nat) acts ->
  forall l, acts_on (oes ++ es) acts l = acts_on oes acts l.
Proof.
  induction 1 as [|a acts L F IH]; intros l; [reflexivity|]. unfold acts_on in *. cbn [fold_left]. rewrite IH. f_equal.
  unfold act. now rewrite nth_error_app1.
Qed.
Lemma trans_trans b b1 b2 o1 o2 a1 a2 : trans b b1 o1 a1 -> trans b1 b2 o2 a2 -> trans b b2 (o1 ++ o2) (a1 ++ a2).
Proof.
  intros [I1 (e1 & O1 & L1) C1 A1 (n1 & N1 & T1)] [I2 (e2 & O2 & L2) C2 A2 (n2 & N2 & T2)]. constructor.
  - congruence.
  - exists (e1 ++ e2). split; [rewrite O2, O1, app_assoc; reflexivity|].
    unfold outs_of in *. rewrite app_length, map_app, list_sum_app. lia.
  - rewrite C2, C1. unfold acts_on. rewrite fold_left_app. f_equal. rewrite O2. symmetry. now apply acts_on_ext.
  - apply Forall_app. split; [|assumption]. eapply Forall_impl; [|exact A1]. cbn. intros a L. rewrite O2, app_length. lia.
  - exists (n1 ++ n2). split; [rewrite N2, N1, app_assoc; reflexivity|].
    intros H call vals ms S. destruct (T1 H call vals ms S) as [R1 S1]. split.
    + intros w. rewrite !runs_app. split; intros (u & U1 & U2).
      * apply R1 in U1. destruct (S1 u U1) as (ms1 & _ & S2). exists u. split; [assumption|]. now apply (T2 H call u ms1 S2).
      * destruct (S1 u U1) as (ms1 & _ & S2). exists u. split; [now apply R1|]. now apply (T2 H call u ms1 S2).
    + intros w Hr. apply runs_app in Hr as (u & U1 & U2). destruct (S1 u U1) as (ms1 & X1 & S2).
      destruct (proj2 (T2 H call u ms1 S2) w U2) as (ms2 & X2 & S3). exists ms2. split; [eapply extends_trans; eassumption|assumption].
Qed.
Lemma trans_push i b b' : push K kcmp i b = Some b' -> trans b b' [i] [].
Proof using cv_const.
  intros E. destruct (push_ok i b b' E) as (C & I & (es & O & L) & i' & N & T). constructor; auto.
  - exists es. split; [assumption|]. unfold outs_of. cbn. lia.
  - exists [i']. split; [assumption|]. intros H call vals ms S. destruct (T H call vals ms S) as [T1 T2]. split.
    + intros w. rewrite !runs_cons_iff. split; intros (o & S1 & S2); exists o; (split; [now apply T1|assumption]).
    + intros w Hr. apply runs_cons_iff in Hr as (o & S1 & S2). apply runs_nil_iff in S2. subst w. now apply T2.
Qed.
Lemma trans_push1 i b b' x : push1 K kcmp i b = Some (b', x) -> hn_outputs i = 1%nat ->
  trans b b' [i] [] /\ x = length (b_oexprs K b) /\ length (b_oexprs K b') = (length (b_oexprs K b) + 1)%nat.
Proof using cv_const.
  unfold push1. intros E O. ob E. injection E as <- <-. pose proof (trans_push _ _ _ E0) as T. split; [assumption|].
  destruct (tr_oexprs _ _ _ _ T) as (es & Oe & L). unfold outs_of in L. cbn in L. rewrite Oe, app_length. lia.
Qed.
Lemma trans_assert x b b' : assert_zero K x b = Some b' -> trans b b' [] [(x, Asserted)] /\ b_oexprs K b' = b_oexprs K b.
Proof.
  unfold assert_zero. intros E. ob E.
  assert (L : (x < length (b_oexprs K b))%nat) by (apply nth_error_Some; congruence).
  assert (G : b' = b \/ b' = with_cons K b (con_set K a Asserted (b_cons K b))) by (destruct (con_find K a (b_cons K b)); injection E; auto).
  assert (Go : b_oexprs K b' = b_oexprs K b) by (destruct G as [->| ->]; reflexivity). split; [|assumption].
  constructor.
  - destruct G as [->| ->]; reflexivity.
  - exists []. rewrite app_nil_r. auto.
  - rewrite Go. unfold acts_on, act. cbn [fold_left fst snd]. rewrite E0. destruct (con_find K a (b_cons K b)); injection E as <-; reflexivity.
  - constructor; [|constructor]. cbn. rewrite Go. assumption.
  - exists []. split; [rewrite app_nil_r; destruct G as [->| ->]; reflexivity|]. intros H call vals ms S. split; [reflexivity|].
    intros w Hr. apply runs_nil_iff in Hr. subst w. exists ms. split; [apply extends_refl|]. destruct G as [->| ->]; [assumption|now apply Sinv_cons].
Qed.
Lemma trans_mark x b b' : mark_zero K x b = Some b' -> trans b b' [] [(x, Marked)] /\ b_oexprs K b' = b_oexprs K b.
Proof.
  unfold mark_zero. intros E. ob E. injection E as <-.
  assert (L : (x < length (b_oexprs K b))%nat) by (apply nth_error_Some; congruence). split; [|reflexivity].
  constructor; cbn [with_cons b_in_to_out b_oexprs b_cons b_insns].
  - reflexivity.
  - exists []. rewrite app_nil_r. auto.
  - unfold acts_on, act. cbn [fold_left fst snd]. rewrite E0. reflexivity.
  - constructor; [|constructor]. assumption.
  - exists []. split; [rewrite app_nil_r; reflexivity|]. intros H call vals ms S. split; [reflexivity|].
    intros w Hr. apply runs_nil_iff in Hr. subst w. exists ms. split; [apply extends_refl|]. now apply Sinv_cons.
Qed.

(** *** what a single step does *)
Lemma st_const (H : hints) call vals c outs : step H call vals (NPlain (HConst (Layered.Constant c))) outs <-> outs = [c].
Proof using cv_const. cbn. now rewrite cv_const. Qed.
Lemma st_lin2 (H : hints) call vals x y k l a c outs : nth_error vals x = Some a -> nth_error vals y = Some c ->
  (step H call vals (NPlain (HLin (mkLC [(x, k); (y, l)] 0))) outs <-> outs = [a * k + c * l]).
Proof.
  intros Ea Ec. cbn. unfold lc_value. cbn. rewrite Ea, Ec. cbn.
  replace (0 + (a * k + (c * l + 0))) with (a * k + c * l) by ring.
  split; [intros (v & [= <-] & ->); reflexivity|intros ->; eauto].
Qed.
Lemma st_lin1 (H : hints) call vals x k a outs : nth_error vals x = Some a ->
  (step H call vals (NPlain (HLin (mkLC [(x, k)] 0))) outs <-> outs = [a * k]).
Proof.
  intros Ea. cbn. unfold lc_value. cbn. rewrite Ea. cbn. replace (0 + (a * k + 0)) with (a * k) by ring.
  split; [intros (v & [= <-] & ->); reflexivity|intros ->; eauto].
Qed.
Lemma st_mul (H : hints) call vals x y a c outs : nth_error vals x = Some a -> nth_error vals y = Some c ->
  (step H call vals (NPlain (HMul [x; y])) outs <-> outs = [a * c]).
Proof.
  intros Ea Ec. assert (P : fprod [a; c] = a * c) by (unfold fprod; cbn; ring).
  cbn [hn_step hl_step]. unfold at_all. cbn [omap]. rewrite Ea, Ec. cbn [obind].
  split; [intros (v & [= <-] & ->); now rewrite P|intros ->; exists [a; c]; now rewrite P].
Qed.
Lemma st_hint2 (H : hints) call vals h x y a c outs : nth_error vals x = Some a -> nth_error vals y = Some c ->
  (step H call vals (NHint h [x; y] 1) outs <-> exists r, outs = [r] /\ H h [a; c] [r]).
Proof.
  intros Ea Ec. cbn. unfold at_all. cbn. rewrite Ea, Ec. cbn.
  split.
  - intros (v & [= <-] & Hh & L). destruct outs as [|r [|? ?]]; try discriminate. eauto.
  - intros (r & -> & Hh). eauto.
Qed.
End Push.
