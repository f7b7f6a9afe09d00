(** The builder of the first compiler pass (Model/Normalize.v): every pushed
    instruction is kept, or replaced by an equivalent one, and the builder's
    tables stay consistent with the values of the variables. *)
From Coq Require Import List Bool Arith Lia Permutation Sorted Ring Field.
Import ListNotations.
From Verif Require Import Base.Array Base.Field Model.Expr Model.Ir Model.Containers Model.Normalize
  Spec.CircuitMeaning Proofs.Expr Proofs.NormalizeExpr.
From Verif Require Model.Layered.

Lemma obind_some {A B} (o : option A) (f : A -> option B) b : obind o f = Some b -> exists a, o = Some a /\ f a = Some b.
Proof. destruct o; cbn; [eauto|discriminate]. Qed.
Ltac ob E := let a := fresh "a" in let H := fresh "E" in apply obind_some in E as (a & H & E).

Section Build.
Variable K : field.
Add Field Kfield_build : (fth K).
Local Open Scope fld_scope.
Notation expr := (Expr.expr K).
Notation epool := (pool expr).
Variable gate : nat -> list K -> K.
Notation ev := (ev K gate 0).
Notation wf := (wf K).
Notation bounded := (bounded K).
Notation pinv := (pinv K gate).
Notation good := (good K gate).
Notation mv := (mv K).
Notation extends := (extends K).
Notation builder := (builder K).
Notation extends_refl := (extends_refl K).
Notation extends_trans := (extends_trans K).
Local Set Default Proof Using "Type".

Record Sinv (b : builder) (vals ms : list K) : Prop := {
  s_pool : pinv (b_mids K b) ms;
  s_len : length vals = length (b_oexprs K b);
  s_zero : nth_error (b_oexprs K b) 0 = Some e_default;
  s_val : forall i e, nth_error (b_oexprs K b) i = Some e ->
          wf e /\ bounded (length ms) e /\ nth_error vals i = Some (ev (mv ms) e);
  s_m2o_len : (length (b_mid_to_out K b) <= length ms)%nat;
  s_m2o : forall i r, nth_error (b_mid_to_out K b) i = Some (Some r) ->
          exists v, nth_error vals (r_x K r) = Some v /\ mv ms i = r_k K r * v + r_b K r;
  s_e2o : forall e x, In (e, x) (b_expr_to_out K b) -> nth_error (b_oexprs K b) x = Some e }.

Lemma nth_error_last {A} (l : list A) x : nth_error (l ++ [x]) (length l) = Some x.
Proof. rewrite nth_error_app2, Nat.sub_diag by lia. reflexivity. Qed.
Lemma nth_error_pad {A} (l : list (option A)) n i r : nth_error (l ++ repeat None n) i = Some (Some r) -> nth_error l i = Some (Some r).
Proof.
  intros E. destruct (Nat.lt_ge_cases i (length l)) as [L|L]; [now rewrite nth_error_app1 in E|].
  rewrite nth_error_app2 in E by assumption. apply nth_error_In, repeat_spec in E. discriminate.
Qed.
Lemma aset_some {A} (l : list A) i x l' : aset l i x = Some l' ->
  length l' = length l /\ (i < length l)%nat /\ forall j, nth_error l' j = if Nat.eqb j i then Some x else nth_error l j.
Proof.
  revert i l'. induction l as [|a l IH]; intros [|i] l' E; cbn in E; try discriminate.
  - injection E as <-. cbn. split; [reflexivity|]. split; [lia|]. intros [|j]; reflexivity.
  - ob E. injection E as <-. destruct (IH i a0 E0) as (L & I & G). cbn. split; [lia|]. split; [lia|].
    intros [|j]; [reflexivity|]. apply G.
Qed.
Lemma mv_last ms v : mv (ms ++ [v]) (length ms) = v.
Proof. unfold NormalizeExpr.mv. rewrite app_nth2, Nat.sub_diag by lia. reflexivity. Qed.

(** more values of internal variables do not matter *)
Lemma s_val_extends (ms ms' : list K) e : extends ms ms' -> bounded (length ms) e ->
  bounded (length ms') e /\ ev (mv ms') e = ev (mv ms) e.
Proof.
  intros X B. split; [eapply bounded_le; [apply extends_length; exact X|assumption]|]. now apply ev_extends.
Qed.
Lemma Sinv_pool (b : builder) vals ms p ms' : Sinv b vals ms -> extends ms ms' -> pinv p ms' -> Sinv (with_mids K b p) vals ms'.
Proof.
  intros S X P. destruct S as [Sp Sl Sz Sv Sm1 Sm2 Se].
  constructor; cbn [with_mids b_mids b_oexprs b_mid_to_out b_expr_to_out]; auto.
  - intros i e Hi. destruct (Sv i e Hi) as (W & B & V). destruct (s_val_extends ms ms' e X B) as [B' V'].
    split; [assumption|]. split; [assumption|]. now rewrite V'.
  - apply extends_length in X. lia.
  - intros i r Hr. destruct (Sm2 i r Hr) as (v & Hv & E). exists v. split; [assumption|].
    rewrite <- E. apply mv_extends; [assumption|].
    assert (i < length (b_mid_to_out K b))%nat by (apply nth_error_Some; congruence). lia.
Qed.

(** basic.rs:255-290, one iteration *)
Lemma fix_one_frame n i b b' st : fix_one K n i b = Some (b', st) ->
  b_cons K b' = b_cons K b /\ b_in_to_out K b' = b_in_to_out K b /\ b_oexprs K b' = b_oexprs K b /\
  (b_insns K b' = b_insns K b \/ (n = 1%nat /\ exists x, replace_last K (b_insns K b) x = Some (b_insns K b'))).
Proof.
  unfold fix_one. intros E. ob E. ob E. ob E. destruct a1 as [p [[eid k] c]]. cbn [b_insns b_oexprs b_cons b_in_to_out b_expr_to_out b_mids] in E.
  destruct (eid =? 0)%nat.
  - ob E. ob E. injection E as <- <-. apply guard_some in E3. apply andb_true_iff in E3 as [E3 _]. apply Nat.eqb_eq in E3.
    cbn. repeat (split; [reflexivity|]). right. split; [assumption|]. eauto.
  - ob E. destruct a1 as [r|].
    + ob E. ob E. injection E as <- <-. apply guard_some, Nat.eqb_eq in E4. cbn. repeat (split; [reflexivity|]). right. split; [assumption|]. eauto.
    + ob E. ob E. injection E as <- <-. cbn. repeat (split; [reflexivity|]). left; reflexivity.
Qed.
Lemma fix_one_sinv n i b b' st vals ms : fix_one K n i b = Some (b', st) -> (1 <= i)%nat -> Sinv b vals ms ->
  exists ms', extends ms ms' /\ Sinv b' vals ms'.
Proof.
  unfold fix_one. intros E I S. ob E. apply guard_some, Nat.leb_le in E0. ob E. ob E.
  destruct a1 as [p [[eid k] c]]. cbn [b_insns b_oexprs b_cons b_in_to_out b_expr_to_out b_mids] in E.
  destruct (s_val _ _ _ S _ _ E1) as (W & B & V).
  destruct (to_single_stripped_ok K gate _ ms _ p eid k c (s_pool _ _ _ S) W B E2) as (ms' & X & P & C).
  pose proof (Sinv_pool b vals ms p ms' S X P) as S1.
  set (id := (length (b_oexprs K b) - i)%nat) in *.
  set (m2o := b_mid_to_out K b ++ repeat None (pool_len _ p - length (b_mid_to_out K b))) in *.
  assert (Lm : length m2o = length ms').
  { subst m2o. rewrite app_length, repeat_length. unfold pool_len. rewrite <- (pi_len _ _ _ _ P).
    pose proof (s_m2o_len _ _ _ S1). cbn [with_mids b_mid_to_out] in H. lia. }
  assert (Mo : forall j r, nth_error m2o j = Some (Some r) ->
     exists v, nth_error vals (r_x K r) = Some v /\ mv ms' j = r_k K r * v + r_b K r).
  { intros j r Hj. apply nth_error_pad in Hj. apply (s_m2o _ _ _ S1 j r Hj). }
  assert (S2 : forall m l, length m = length ms' ->
     (forall j r, nth_error m j = Some (Some r) -> exists v, nth_error vals (r_x K r) = Some v /\ mv ms' j = r_k K r * v + r_b K r) ->
     Sinv (mkB K (b_cons K b) (b_oexprs K b) p m ((a0, id) :: b_expr_to_out K b) (b_in_to_out K b) l) vals ms').
  { intros m l Lm' Gm. destruct S1 as [Sp Sl Sz Sv Sm1 Sm2 Se]. cbn [with_mids b_mids b_oexprs b_mid_to_out b_expr_to_out] in *.
    constructor; cbn [b_mids b_oexprs b_mid_to_out b_expr_to_out]; auto; [lia|].
    intros e x [E'|Hin]; [injection E' as <- <-; assumption|auto]. }
  exists ms'. split; [assumption|].
  destruct (eid =? 0)%nat eqn:Eid.
  - ob E. ob E. injection E as <- <-. apply S2; assumption.
  - apply Nat.eqb_neq in Eid. destruct C as [[C _]|[C1 C2]]; [contradiction|]. ob E. destruct a1 as [r|].
    + ob E. ob E. injection E as <- <-. apply S2; assumption.
    + ob E. ob E. injection E as <- <-. apply kinv_some in E4 as [Nk ->].
      destruct (aset_some _ _ _ _ E5) as (L1 & L2 & G).
      apply S2; [congruence|]. intros j r. rewrite G. destruct (j =? eid)%nat eqn:Ej; [|apply Mo].
      apply Nat.eqb_eq in Ej. subst j. intros [= <-]. cbn. eexists. split; [exact V|].
      rewrite C2. field. assumption.
Qed.

Lemma replace_last_app l i x l' : replace_last K (l ++ [i]) x = Some l' -> l' = l ++ [x].
Proof. unfold replace_last. destruct (l ++ [i]) eqn:E; [discriminate|]. rewrite <- E. rewrite removelast_last. congruence. Qed.

Lemma lc_kx_value (vals : list K) x k c v : nth_error vals 0 = Some 0 -> nth_error vals x = Some v ->
  lc_value vals (lc_kx_plus_b x k c) = Some (k * v + c).
Proof.
  intros Z V. unfold lc_kx_plus_b. destruct (x =? 0)%nat eqn:Ex; cbn [orb].
  { apply Nat.eqb_eq in Ex. subst x. rewrite Z in V. injection V as <-. unfold lc_value; cbn. f_equal. ring. }
  destruct (feqb k 0) eqn:Ek.
  { apply feqb_eq in Ek. subst. unfold lc_value; cbn. f_equal. ring. }
  unfold lc_value; cbn. rewrite V. cbn. f_equal. ring.
Qed.

(** one output whose expression is known: basic.rs:177-220 after the expression
    has been computed *)
Lemma push_expr_ok b e p i b' :
  fix_mid_to_out K 1 (mkB K (b_cons K b) (b_oexprs K b ++ [e]) p (b_mid_to_out K b) (b_expr_to_out K b) (b_in_to_out K b) (b_insns K b ++ [i])) = Some b' ->
  b_cons K b' = b_cons K b /\ b_in_to_out K b' = b_in_to_out K b /\ b_oexprs K b' = b_oexprs K b ++ [e] /\
  exists i', b_insns K b' = b_insns K b ++ [i'] /\
    forall vals ms v, Sinv b vals ms -> good p ms e v ->
      (exists ms', extends ms ms' /\ Sinv b' (vals ++ [v]) ms') /\
      (i' = i \/ exists lc, i' = NPlain (HLin lc) /\ lc_value vals lc = Some v).
Proof.
  unfold fix_mid_to_out. cbn [seq fix_loop]. intros E. ob E. destruct a as [b2 st].
  assert (b2 = b') by (destruct st; congruence). subst b2.
  set (b1 := mkB K _ _ _ _ _ _ _) in *.
  destruct (fix_one_frame _ _ _ _ _ E0) as (F1 & F2 & F3 & F4).
  split; [exact F1|]. split; [exact F2|]. split; [exact F3|].
  assert (Ex : exists i', b_insns K b' = b_insns K b ++ [i']).
  { destruct F4 as [->|(_ & x & R)]; [exists i; reflexivity|]. apply replace_last_app in R. eauto. }
  destruct Ex as (i' & Ei). exists i'. split; [exact Ei|].
  intros vals ms v S (ms1 & X1 & P1 & W & B & V).
  assert (S1 : Sinv b1 (vals ++ [v]) ms1).
  { pose proof (Sinv_pool b vals ms p ms1 S X1 P1) as [Sp Sl Sz Sv Sm1 Sm2 Se].
    cbn [with_mids b_mids b_oexprs b_mid_to_out b_expr_to_out] in *.
    constructor; cbn [b1 b_mids b_oexprs b_mid_to_out b_expr_to_out]; auto.
    - rewrite !app_length. cbn. lia.
    - rewrite nth_error_app1; [assumption|]. apply nth_error_Some. congruence.
    - intros j e' Hj. destruct (Nat.lt_ge_cases j (length (b_oexprs K b))) as [L|L].
      + rewrite nth_error_app1 in Hj by assumption. rewrite nth_error_app1 by lia. auto.
      + rewrite nth_error_app2 in Hj by assumption. rewrite nth_error_app2 by lia. rewrite Sl.
        destruct (j - length (b_oexprs K b))%nat as [|k]; [|destruct k; discriminate]. injection Hj as <-.
        split; [assumption|]. split; [assumption|]. cbn. congruence.
    - intros j r Hj. destruct (Sm2 j r Hj) as (u & Hu & Eu). exists u. split; [|assumption].
      rewrite nth_error_app1; [assumption|]. apply nth_error_Some. congruence.
    - intros e' x Hin. rewrite nth_error_app1; [auto|]. apply nth_error_Some. rewrite (Se _ _ Hin). discriminate. }
  split.
  { destruct (fix_one_sinv _ _ _ _ _ _ _ E0 (le_n _) S1) as (ms2 & X2 & S2). exists ms2.
    split; [eapply extends_trans; eassumption|assumption]. }
  (* the instruction *)
  clear F1 F2 F3 F4. unfold fix_one in E0. ob E0. ob E0. ob E0. destruct a1 as [p2 [[eid k] c]].
  cbn [b1 b_insns b_oexprs b_cons b_in_to_out b_expr_to_out b_mids b_mid_to_out] in E0, E1, E2, E3.
  rewrite app_length, Nat.add_sub in E2. rewrite nth_error_last in E2. injection E2 as <-.
  destruct (to_single_stripped_ok K gate _ ms1 _ p2 eid k c P1 W B E3) as (ms' & X & P & C).
  assert (Z : nth_error vals 0 = Some 0).
  { destruct (s_val _ _ _ S _ _ (s_zero _ _ _ S)) as (_ & _ & ->). f_equal. apply ev_default. }
  destruct (eid =? 0)%nat eqn:Eid.
  - apply Nat.eqb_eq in Eid. subst eid. ob E0. ob E0. injection E0 as <- _. cbn in Ei.
    apply replace_last_app in E4. rewrite E4 in Ei. apply app_inj_tail in Ei as [_ <-].
    right. eexists. split; [reflexivity|]. apply guard_some in E2. apply andb_true_iff in E2 as [_ E2]. apply feqb_eq in E2.
    destruct C as [[_ C]|[C _]]; [|lia]. rewrite (lc_kx_value vals 0 0 c 0 Z Z). f_equal. rewrite <- V, (C E2). ring.
  - apply Nat.eqb_neq in Eid. destruct C as [[C _]|[C1 C2]]; [contradiction|]. ob E0. destruct a0 as [r|].
    + ob E0. ob E0. injection E0 as <- _. cbn in Ei. apply replace_last_app in E5. rewrite E5 in Ei. apply app_inj_tail in Ei as [_ <-].
      right. eexists. split; [reflexivity|]. apply nth_error_pad in E2.
      pose proof (Sinv_pool b vals ms p2 ms' S (extends_trans _ _ _ X1 X) P) as S3.
      destruct (s_m2o _ _ _ S3 _ _ E2) as (u & Hu & Eu).
      rewrite (lc_kx_value vals _ _ _ u Z Hu). f_equal. rewrite <- V, C2, Eu. ring.
    + ob E0. ob E0. injection E0 as <- _. cbn in Ei. apply app_inj_tail in Ei as [_ <-]. left; reflexivity.
Qed.

(** basic.rs:157-175 fresh output variables *)
Lemma new_out_var_frame start l : forall b b', for_each l (new_out_var K start) b = Some b' ->
  b_cons K b' = b_cons K b /\ b_in_to_out K b' = b_in_to_out K b /\ b_insns K b' = b_insns K b /\
  b_oexprs K b' = b_oexprs K b ++ map (fun i => e_linear 1 (start + i)%nat) l /\ b_mid_to_out K b' = b_mid_to_out K b.
Proof.
  induction l as [|i l IH]; cbn [for_each]; intros b b' E.
  - injection E as <-. cbn. rewrite app_nil_r. auto.
  - ob E. unfold new_out_var in E0. destruct (padd K _ _) as [p idx]. ob E0. injection E0 as <-.
    destruct (IH _ _ E) as (F1 & F2 & F3 & F4 & F5). cbn in F1, F2, F3, F4, F5.
    repeat (split; [assumption|]). split; [|assumption]. rewrite F4, <- app_assoc. reflexivity.
Qed.
Lemma new_out_vars_ok start outs : forall k b b' vals ms,
  for_each (seq k (length outs)) (new_out_var K start) b = Some b' -> Sinv b vals ms -> length ms = (start + k)%nat ->
  Sinv b' (vals ++ outs) (ms ++ outs).
Proof.
  induction outs as [|v outs IH]; cbn [length seq for_each]; intros k b b' vals ms E S L.
  - injection E as <-. now rewrite !app_nil_r.
  - ob E. unfold new_out_var in E0. destruct (padd K _ _) as [p idx] eqn:Ep. ob E0. injection E0 as <-.
    apply guard_some, Nat.eqb_eq in E1. unfold pool_len in *.
    pose proof (s_pool _ _ _ S) as P. pose proof (pi_len _ _ _ _ P) as Pl.
    destruct (padd_new K gate (b_mids K b) ms (e_linear 1 (length (pool_vec (b_mids K b)))) v p idx P (wf_linear K 1 _)) as [Vec P']; auto.
    { apply bounded_linear. lia. }
    { rewrite ev_linear, <- Pl, mv_last. ring. }
    pose proof (Sinv_pool b vals ms p (ms ++ [v]) S (extends_app K _ _) P') as [Sp Sl Sz Sv Sm1 Sm2 Se].
    cbn [with_mids b_mids b_oexprs b_mid_to_out b_expr_to_out] in *.
    replace (vals ++ v :: outs) with ((vals ++ [v]) ++ outs) by (rewrite <- app_assoc; reflexivity).
    replace (ms ++ v :: outs) with ((ms ++ [v]) ++ outs) by (rewrite <- app_assoc; reflexivity).
    eapply IH; [exact E| |rewrite app_length; cbn; lia].
    constructor; cbn [with_mids with_oexpr b_mids b_oexprs b_mid_to_out b_expr_to_out]; auto.
    + rewrite !app_length. cbn. lia.
    + rewrite nth_error_app1; [assumption|]. apply nth_error_Some. congruence.
    + intros j e' Hj. destruct (Nat.lt_ge_cases j (length (b_oexprs K b))) as [Lj|Lj].
      * rewrite nth_error_app1 in Hj by assumption. rewrite nth_error_app1 by lia. auto.
      * rewrite nth_error_app2 in Hj by assumption. rewrite nth_error_app2 by lia. rewrite Sl.
        destruct (j - length (b_oexprs K b))%nat as [|q]; [|destruct q; discriminate]. injection Hj as <-.
        split; [apply wf_linear|]. split; [apply bounded_linear; rewrite app_length; cbn; lia|].
        cbn [nth_error]. f_equal. rewrite ev_linear, <- L, mv_last. ring.
    + intros j r Hj. destruct (Sm2 j r Hj) as (u & Hu & Eu). exists u. split; [|assumption].
      rewrite nth_error_app1; [assumption|]. apply nth_error_Some. congruence.
    + intros e' x Hin. rewrite nth_error_app1; [auto|]. apply nth_error_Some. rewrite (Se _ _ Hin). discriminate.
Qed.
Lemma fix_loop_frame n is : forall b b', fix_loop K n is b = Some b' ->
  b_cons K b' = b_cons K b /\ b_in_to_out K b' = b_in_to_out K b /\ b_oexprs K b' = b_oexprs K b /\
  (n <> 1%nat -> b_insns K b' = b_insns K b).
Proof.
  induction is as [|i is IH]; cbn [fix_loop]; intros b b' E; [injection E as <-; auto|].
  ob E. destruct a as [b1 st]. destruct (fix_one_frame _ _ _ _ _ E0) as (F1 & F2 & F3 & F4).
  assert (F5 : n <> 1%nat -> b_insns K b1 = b_insns K b) by (intros N; destruct F4 as [?|[? _]]; [assumption|contradiction]).
  destruct st.
  - injection E as <-. auto.
  - destruct (IH _ _ E) as (G1 & G2 & G3 & G4). rewrite G1, G2, G3. repeat (split; [assumption|]).
    intros N. rewrite G4, F5 by assumption. reflexivity.
Qed.
Lemma fix_loop_sinv n is : forall b b' vals ms, Forall (fun i => (1 <= i)%nat) is -> fix_loop K n is b = Some b' -> Sinv b vals ms ->
  exists ms', extends ms ms' /\ Sinv b' vals ms'.
Proof.
  induction is as [|i is IH]; cbn [fix_loop]; intros b b' vals ms F E S.
  - injection E as <-. exists ms. split; [apply extends_refl|assumption].
  - inversion F; subst. ob E. destruct a as [b1 st]. destruct (fix_one_sinv _ _ _ _ _ _ _ E0 H1 S) as (ms1 & X1 & S1).
    destruct st; [injection E as <-; eauto|]. destruct (IH _ _ _ _ H2 E S1) as (ms2 & X2 & S2).
    exists ms2. split; [eapply extends_trans; eassumption|assumption].
Qed.

Lemma strip_linear x : strip_constants K (e_linear 1 x) = Some (e_linear 1 x, 1, 0).
Proof.
  unfold strip_constants, e_linear, t_linear; cbn [filter is_const_term t_vars negb fold_left t_coef].
  unfold kinv. destruct (feqb (1:K) 0) eqn:E; [apply feqb_eq in E; destruct (f1_neq_0 K E)|]. cbn [obind map t_coef t_vars].
  replace (1 * finv 1) with (1 : K) by (field; apply f1_neq_0). reflexivity.
Qed.

Lemma add_out_vars_frame n b b' : add_out_vars K n b = Some b' ->
  b_cons K b' = b_cons K b /\ b_in_to_out K b' = b_in_to_out K b /\
  (exists es, b_oexprs K b' = b_oexprs K b ++ es /\ length es = n) /\
  (b_insns K b' = b_insns K b \/ exists x, replace_last K (b_insns K b) x = Some (b_insns K b')).
Proof.
  unfold add_out_vars. intros E. ob E. destruct (new_out_var_frame _ _ _ _ E0) as (F1 & F2 & F3 & F4 & _).
  unfold fix_mid_to_out in E. destruct (fix_loop_frame _ _ _ _ E) as (G1 & G2 & G3 & G4).
  rewrite G1, G2, G3. repeat (split; [assumption|]). split; [eexists; split; [exact F4|]; now rewrite map_length, seq_length|].
  destruct (Nat.eq_dec n 1) as [->|N]; [|left; rewrite G4 by assumption; assumption].
  cbn [seq fix_loop] in E. ob E. destruct a0 as [b1 st]. assert (b1 = b') by (destruct st; congruence). subst b1.
  destruct (fix_one_frame _ _ _ _ _ E1) as (_ & _ & _ & [H|[_ H]]); rewrite F3 in H; auto.
Qed.
Lemma add_out_vars_ok n b b' vals ms outs : add_out_vars K n b = Some b' -> Sinv b vals ms -> length outs = n ->
  b_insns K b' = b_insns K b /\ exists ms', extends ms ms' /\ Sinv b' (vals ++ outs) ms'.
Proof.
  unfold add_out_vars. intros E S L. ob E. destruct (new_out_var_frame _ _ _ _ E0) as (F1 & F2 & F3 & F4 & F5).
  assert (Pl : length ms = pool_len _ (b_mids K b)) by (apply (pi_len _ _ _ _ (s_pool _ _ _ S))).
  assert (S1 : Sinv a (vals ++ outs) (ms ++ outs)).
  { subst n. eapply new_out_vars_ok; [exact E0|assumption|]. lia. }
  unfold fix_mid_to_out in E.
  assert (Fs : Forall (fun i => (1 <= i)%nat) (seq 1 n)) by (apply Forall_forall; intros i Hi; apply in_seq in Hi; lia).
  destruct (fix_loop_sinv _ _ _ _ _ _ Fs E S1) as (ms' & X & S').
  split; [|exists ms'; split; [eapply extends_trans; [apply extends_app|exact X]|assumption]].
  destruct (fix_loop_frame _ _ _ _ E) as (_ & _ & _ & G4).
  destruct (Nat.eq_dec n 1) as [->|N]; [|rewrite G4 by assumption; assumption].
  cbn [seq for_each] in E0. ob E0. injection E0 as <-. unfold new_out_var in E1.
  rewrite Nat.add_0_r in E1. set (x := pool_len _ (b_mids K b)) in *.
  unfold padd, pool_add in E1.
  destruct (pool_lookup _ expr_eqb (e_linear 1 x) (pool_map (b_mids K b))) as [idx|] eqn:Lk.
  { ob E1. apply guard_some, Nat.eqb_eq in E0. subst idx. apply (pi_map _ _ _ _ (s_pool _ _ _ S)) in Lk.
    assert (x < length (pool_vec (b_mids K b)))%nat by (apply nth_error_Some; congruence). unfold x, pool_len in H. lia. }
  apply obind_some in E1 as (? & _ & E1). injection E1 as <-. cbn [seq fix_loop] in E. apply obind_some in E as ([b1 st] & E1 & E). assert (b1 = b') by (destruct st; congruence). subst b1. clear E.
  unfold fix_one in E1. apply obind_some in E1 as (? & _ & E1). apply obind_some in E1 as (e9 & Ee & E1).
  apply obind_some in E1 as ([p9 [[eid k9] c9]] & Et & E1).
  cbn [with_oexpr with_mids b_mids b_oexprs b_insns b_mid_to_out b_cons b_in_to_out b_expr_to_out] in *.
  rewrite app_length, Nat.add_sub, nth_error_last in Ee. injection Ee as <-.
  unfold to_single_stripped in Et. rewrite strip_linear in Et. cbn in Et.
  unfold padd, pool_add in Et. cbn [pool_map] in Et. unfold pool_lookup in Et. cbn [find fst] in Et.
  assert (Rf : expr_eqb (e_linear (1:K) x) (e_linear 1 x) = true) by (now apply expr_eqb_eq).
  fold (@e_linear K 1 x) in Et. cbn [find fst] in Et. 
  rewrite Rf in Et. cbn [option_map snd] in Et. injection Et as <- <- <- <-.
  change (length (pool_vec (b_mids K b))) with x in E1.
  destruct (x =? 0)%nat eqn:Ex.
  { apply Nat.eqb_eq in Ex. pose proof (pi_zero _ _ _ _ (s_pool _ _ _ S)) as Z.
    assert (0 < length (pool_vec (b_mids K b)))%nat by (apply nth_error_Some; congruence). unfold x, pool_len in Ex. lia. }
  apply obind_some in E1 as ([r|] & Er & E1).
  { apply nth_error_pad in Er. assert (x < length (b_mid_to_out K b))%nat by (apply nth_error_Some; congruence).
    pose proof (s_m2o_len _ _ _ S). lia. }
  apply obind_some in E1 as (? & _ & E1). apply obind_some in E1 as (? & _ & E1). injection E1 as <- <-. reflexivity.
Qed.
End Build.
