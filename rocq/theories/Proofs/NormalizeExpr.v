(** The expression level of the first compiler pass (Model/Normalize.v): the
    pool of internal variables stays consistent with some values of these
    variables, and combining expressions has the expected value. *)
From Coq Require Import List Bool Arith Lia Permutation Sorted Ring Field.
Import ListNotations.
From Verif Require Import Base.Array Base.Field Model.Expr Model.Ir Model.Containers Model.Normalize Proofs.Expr.

Section NormalizeExpr.
Variable K : field.
Add Field Kfield_nexpr : (fth K).
Variable kcmp : K -> K -> comparison.
Local Set Default Proof Using "Type".
Local Open Scope fld_scope.
Notation expr := (Expr.expr K).
Notation term := (Expr.term K).
Notation epool := (pool expr).
Variable gate : nat -> list K -> K.
Notation ev := (ev K gate 0).
Notation tv := (tv K gate 0).
Notation wf := (wf K).
Notation bounded := (bounded K).
Notation plain := (plain K).

Definition mv (ms : list K) : nat -> K := fun i => nth i ms 0.
Definition extends (ms ms' : list K) : Prop := exists x, ms' = ms ++ x.
Lemma extends_refl ms : extends ms ms. Proof. exists []. now rewrite app_nil_r. Qed.
Lemma extends_trans a b c : extends a b -> extends b c -> extends a c.
Proof. intros [x ->] [y ->]. exists (x ++ y). now rewrite app_assoc. Qed.
Lemma extends_app a x : extends a (a ++ x). Proof. now exists x. Qed.
Lemma mv_extends ms ms' i : extends ms ms' -> (i < length ms)%nat -> mv ms' i = mv ms i.
Proof. intros [x ->] L. unfold mv. now rewrite app_nth1. Qed.
Lemma ev_extends ms ms' e : extends ms ms' -> bounded (length ms) e -> ev (mv ms') e = ev (mv ms) e.
Proof. intros E B. eapply ev_ext; [exact B|]. intros. now apply mv_extends. Qed.
Lemma extends_length a b : extends a b -> (length a <= length b)%nat.
Proof. intros [x ->]. rewrite app_length. lia. Qed.

(** the pool and the values of its variables agree *)
Record pinv (p : epool) (ms : list K) : Prop := {
  pi_map : forall e i, pool_lookup _ expr_eqb e (pool_map p) = Some i -> nth_error (pool_vec p) i = Some e;
  pi_len : length ms = length (pool_vec p);
  pi_zero : nth_error (pool_vec p) 0 = Some [];
  pi_val : forall i e, i <> 0%nat -> nth_error (pool_vec p) i = Some e ->
           wf e /\ bounded (length ms) e /\ mv ms i = ev (mv ms) e }.

Lemma padd_new p ms e v p' idx : pinv p ms -> wf e ->
  bounded (length ms + 1) e -> v = ev (mv (ms ++ [v])) e ->
  padd K p e = (p', idx) -> idx = length (pool_vec p) ->
  pool_vec p' = pool_vec p ++ [e] /\ pinv p' (ms ++ [v]).
Proof.
  intros [Pm Pl Pz Pv] W B V E I. unfold padd, pool_add in E.
  destruct (pool_lookup _ expr_eqb e (pool_map p)) as [i|] eqn:L.
  - injection E as <- <-. subst i. apply Pm in L. assert (nth_error (pool_vec p) (length (pool_vec p)) <> None) by congruence.
    apply nth_error_Some in H. lia.
  - injection E as <- <-. cbn. split; [reflexivity|].
    constructor; cbn [pool_vec pool_map].
    + intros e' i. unfold pool_lookup; cbn [find fst]. destruct (expr_eqb e' e) eqn:Ee; cbn [option_map snd].
      * apply expr_eqb_eq in Ee. subst e'. intros [= <-]. rewrite nth_error_app2, Nat.sub_diag by lia. reflexivity.
      * intros Hl. change (pool_lookup _ expr_eqb e' (pool_map p) = Some i) in Hl. apply Pm in Hl. rewrite nth_error_app1; [assumption|]. apply nth_error_Some. congruence.
    + rewrite !app_length, Pl. reflexivity.
    + rewrite nth_error_app1; [assumption|]. apply nth_error_Some. congruence.
    + intros i e' Hi Hn. rewrite app_length; cbn [length].
      destruct (Nat.lt_ge_cases i (length (pool_vec p))) as [Hl|Hl].
      * rewrite nth_error_app1 in Hn by assumption. destruct (Pv i e' Hi Hn) as (W' & B' & V').
        split; [assumption|]. split; [eapply bounded_le; [|exact B']; lia|].
        rewrite (mv_extends ms) by (try apply extends_app; lia).
        rewrite (ev_extends ms) by (try apply extends_app; assumption). assumption.
      * rewrite nth_error_app2 in Hn by assumption.
        destruct (i - length (pool_vec p))%nat eqn:Ei; [|destruct n; discriminate].
        injection Hn as <-. split; [assumption|]. split; [assumption|].
        assert (i = length ms) by lia. subst i. unfold mv at 1. rewrite app_nth2, Nat.sub_diag by lia. exact V.
Qed.

Lemma padd_ok p ms e p' idx : pinv p ms -> wf e -> e <> [] -> bounded (length ms) e -> padd K p e = (p', idx) ->
  exists ms', extends ms ms' /\ pinv p' ms' /\ (0 < idx < length ms')%nat /\ mv ms' idx = ev (mv ms) e /\
    nth_error (pool_vec p') idx = Some e.
Proof.
  intros P W N B E. pose proof E as E0. unfold padd, pool_add in E.
  destruct (pool_lookup _ expr_eqb e (pool_map p)) as [i|] eqn:L.
  - injection E as <- <-. apply (pi_map _ _ P) in L. exists ms. split; [apply extends_refl|]. split; [assumption|].
    assert (Li : (i < length (pool_vec p))%nat) by (apply nth_error_Some; congruence).
    assert (Ni : i <> 0%nat). { intros ->. rewrite (pi_zero _ _ P) in L. congruence. }
    rewrite (pi_len _ _ P). split; [lia|]. split; [apply (pi_val _ _ P i e Ni L)|assumption].
  - assert (I : idx = length (pool_vec p)) by (injection E; congruence).
    assert (V : ev (mv ms) e = ev (mv (ms ++ [ev (mv ms) e])) e) by (symmetry; apply ev_extends; [apply extends_app|assumption]).
    destruct (padd_new p ms e (ev (mv ms) e) p' idx P W) as [Vec P']; auto.
    { eapply bounded_le; [|exact B]; lia. }
    exists (ms ++ [ev (mv ms) e]). split; [apply extends_app|]. split; [assumption|].
    assert (Z : (0 < length (pool_vec p))%nat) by (apply nth_error_Some; rewrite (pi_zero _ _ P); discriminate).
    rewrite app_length; cbn [length]. rewrite (pi_len _ _ P). split; [lia|]. split.
    + unfold mv at 1. rewrite app_nth2, I, (pi_len _ _ P), Nat.sub_diag by (rewrite (pi_len _ _ P); lia). reflexivity.
    + rewrite Vec, I, nth_error_app2, Nat.sub_diag by lia. reflexivity.
Qed.

(** *** strip_constants *)
Lemma kinv_some x y : kinv K x = Some y -> x <> 0 /\ y = finv x.
Proof.
  unfold kinv. destruct (feqb x 0) eqn:E; [discriminate|]. intros [= <-]. split; [|reflexivity].
  intros ->. assert (feqb 0 (0:K) = true) by (now apply feqb_eq). congruence.
Qed.
Lemma const_term_vars t : is_const_term K t = true <-> t_vars t = VConst.
Proof. unfold is_const_term. destruct (t_vars t); split; congruence. Qed.
Lemma fold_no_const l : forall c, Forall (fun t => is_const_term K t = false) l ->
  fold_left (fun c t => if is_const_term K t then t_coef t else c) l c = c.
Proof. induction l as [|t l IH]; cbn; intros c F; [reflexivity|]. inversion F as [|? ? Ht F']; subst. rewrite Ht. auto. Qed.
Lemma filter_all {A} (f : A -> bool) l : Forall (fun t => f t = true) l -> filter f l = l.
Proof. induction 1 as [|x l Hx F IH]; cbn; [reflexivity|]. rewrite Hx. congruence. Qed.
Lemma split_const m e : wf e ->
  ev m e = ev m (filter (fun t => negb (is_const_term K t)) e) +
           fold_left (fun c t => if is_const_term K t then t_coef t else c) e 0.
Proof.
  intros [S P]. induction e as [|t e IH]; [unfold ev; cbn; ring|].
  inversion S as [|? ? S' F]; subst. inversion P as [|? ? Pt P']; subst.
  cbn [filter fold_left]. destruct (is_const_term K t) eqn:Et; cbn [negb].
  - assert (N : Forall (fun u => is_const_term K u = false) e).
    { eapply Forall_impl; [|exact F]. intros u Hu. destruct (is_const_term K u) eqn:Eu; [|reflexivity].
      apply const_term_vars in Et. apply const_term_vars in Eu. unfold lt_t in Hu. rewrite Et, Eu in Hu. discriminate. }
    rewrite (fold_no_const e _ N).
    rewrite filter_all by (eapply Forall_impl; [|exact N]; cbn; intros ? ->; reflexivity).
    rewrite ev_cons. apply const_term_vars in Et. unfold Expr.tv. rewrite Et. cbn. ring.
  - rewrite !ev_cons, IH by assumption. ring.
Qed.
Lemma strip_ok e b k c : wf e -> strip_constants K e = Some (b, k, c) ->
  wf b /\ b <> [] /\ (forall m, ev m e = k * ev m b + c) /\ (forall n, bounded n e -> bounded n b).
Proof.
  intros W E. unfold strip_constants in E.
  pose proof (fun m => split_const m e W) as Sp.
  set (body := filter (fun t => negb (is_const_term K t)) e) in *.
  set (cst := fold_left _ e 0) in *.
  assert (Pb : Forall plain body) by (apply Forall_filter, W).
  assert (Bb : forall n, bounded n e -> bounded n body).
  { intros n. rewrite !bounded_in. intros G t Ht. apply G. apply filter_In in Ht as [Ht _]. exact Ht. }
  clearbody body cst.
  destruct body as [|t r] eqn:Eb.
  - injection E as <- <- <-. split; [apply wf_default|]. split; [discriminate|].
    split; [|intros; apply bounded_default]. intros m. rewrite Sp. unfold ev at 1; cbn. ring.
  - rewrite <- Eb in *. destruct (kinv K (t_coef t)) as [vi|] eqn:Ek; [|discriminate]. cbn [obind] in E.
    destruct (e_from_terms_sorted _) as [e'|] eqn:Es in E; [|discriminate]. cbn [obind] in E. injection E as <- <- <-.
    apply kinv_some in Ek as [Nz ->].
    change (e_from_terms_sorted (scale_terms K (finv (t_coef t)) body) = Some e') in Es.
    destruct (from_terms_sorted_ok K _ _ Es) as [-> W']; [now apply scale_plain|].
    assert (Or : or_default (scale_terms K (finv (t_coef t)) body) = scale_terms K (finv (t_coef t)) body) by (rewrite Eb; reflexivity).
    rewrite Or in *. split; [assumption|]. split; [rewrite Eb; discriminate|]. split.
    + intros m. rewrite Sp, scale_ev by assumption. field. assumption.
    + intros n Bn. apply scale_bounded. auto.
Qed.

Lemma unstrip_ok idx k c e : unstrip_single K kcmp idx k c = Some e ->
  idx <> 0%nat /\ wf e /\ (forall m, ev m e = k * m idx + c) /\ (forall n, (idx < n)%nat -> bounded n e).
Proof.
  unfold unstrip_single. destruct (guard _) eqn:G; [|discriminate]. cbn [obind]. intros [= <-].
  apply guard_some in G. apply negb_true_iff, Nat.eqb_neq in G. split; [assumption|].
  set (l := t_linear k idx :: _).
  assert (Pl : Forall plain l) by (subst l; destruct (feqb c 0); repeat constructor).
  split; [apply (from_terms_ok K gate 0 kcmp (mv []) l Pl)|]. split.
  - intros m. destruct (from_terms_ok K gate 0 kcmp m l Pl) as (_ & V & _). rewrite V. subst l.
    destruct (feqb c 0) eqn:Ec.
    + apply feqb_eq in Ec. subst c. unfold Expr.ev; cbn. unfold Expr.tv; cbn. ring.
    + unfold Expr.ev; cbn. unfold Expr.tv; cbn. ring.
  - intros n L. apply (from_terms_ok K gate 0 kcmp (mv []) l Pl). subst l.
    destruct (feqb c 0); unfold Expr.bounded; cbn; repeat constructor; assumption.
Qed.

(** results of pool operations *)
Definition good (p' : epool) (ms : list K) (e : expr) (v : K) : Prop :=
  exists ms', extends ms ms' /\ pinv p' ms' /\ wf e /\ bounded (length ms') e /\ ev (mv ms') e = v.

Lemma to_single_ok p ms e p' e' : pinv p ms -> wf e -> bounded (length ms) e ->
  to_single K kcmp p e = Some (p', e') -> good p' ms e' (ev (mv ms) e).
Proof.
  intros P W B E. unfold to_single in E.
  destruct (strip_constants K e) as [[[b k] c]|] eqn:Es; [|discriminate]. cbn [obind] in E.
  destruct (strip_ok e b k c W Es) as (Wb & Nb & Vb & Bb).
  destruct (e_degree b) as [d|]; [|discriminate]. cbn [obind] in E.
  destruct ((length b =? 1)%nat && (d <=? 1)%nat).
  - injection E as <- <-. exists ms. split; [apply extends_refl|]. auto.
  - destruct (padd K p b) as [p1 idx] eqn:Ep.
    destruct (unstrip_single K kcmp idx k c) as [r|] eqn:Eu; [|discriminate]. cbn [obind] in E. injection E as <- <-.
    destruct (padd_ok p ms b p1 idx P Wb Nb (Bb _ B) Ep) as (ms' & X & P' & L & V & _).
    destruct (unstrip_ok _ _ _ _ Eu) as (_ & We & Ve & Be).
    exists ms'. split; [assumption|]. split; [assumption|]. split; [assumption|]. split; [apply Be; lia|].
    rewrite Ve, V, Vb. reflexivity.
Qed.

Lemma to_single_stripped_ok p ms e p' eid k c : pinv p ms -> wf e -> bounded (length ms) e ->
  to_single_stripped K p e = Some (p', (eid, k, c)) ->
  exists ms', extends ms ms' /\ pinv p' ms' /\
    ((eid = 0%nat /\ (k = 0 -> ev (mv ms) e = c)) \/
     ((0 < eid < length ms')%nat /\ ev (mv ms) e = k * mv ms' eid + c)).
Proof.
  intros P W B E. unfold to_single_stripped in E.
  destruct (strip_constants K e) as [[[b k'] c']|] eqn:Es; [|discriminate]. cbn [obind] in E.
  destruct (strip_ok e b k' c' W Es) as (Wb & Nb & Vb & Bb).
  destruct (e_degree b) as [d|]; [|discriminate]. cbn [obind] in E.
  destruct (d =? 0)%nat.
  - injection E as <- <- <- <-. exists ms. split; [apply extends_refl|]. split; [assumption|]. left.
    split; [reflexivity|]. intros ->. rewrite Vb. ring.
  - destruct (padd K p b) as [p1 idx] eqn:Ep. injection E as <- <- <- <-.
    destruct (padd_ok p ms b p1 idx P Wb Nb (Bb _ B) Ep) as (ms' & X & P' & L & V & _).
    exists ms'. split; [assumption|]. split; [assumption|]. right. split; [assumption|]. rewrite V. apply Vb.
Qed.

Lemma to_really_single_ok p ms e p' e' : pinv p ms -> wf e -> bounded (length ms) e ->
  to_really_single K p e = Some (p', e') -> exists ms', extends ms ms' /\ pinv p' ms'.
Proof.
  intros P W B E. unfold to_really_single in E. destruct (e_degree e) as [d|]; [|discriminate]. cbn [obind] in E.
  assert (G : forall q, (let '(p', idx) := padd K p e in Some (p', @e_linear K 1 idx)) = Some q ->
    exists ms', extends ms ms' /\ pinv (fst q) ms').
  { intros q Eq. destruct (padd K p e) as [p1 idx] eqn:Ep. injection Eq as <-. cbn [fst].
    destruct (Nat.eq_dec idx (length (pool_vec p))) as [I|N].
    - destruct (padd_new p ms e (ev (mv ms) e) p1 idx P W) as [_ P']; auto.
      { eapply bounded_le; [|exact B]; lia. }
      { symmetry; apply ev_extends; [apply extends_app|assumption]. }
      eexists; split; [apply extends_app|exact P'].
    - exists ms. split; [apply extends_refl|]. unfold padd, pool_add in Ep.
      destruct (pool_lookup _ expr_eqb e (pool_map p)); injection Ep as <- <-; [assumption|contradiction]. }
  destruct e as [|t [|u r]]; try (apply (G (p', e') E)).
  destruct (_ && _); [|apply (G (p', e') E)]. injection E as <- <-. exists ms. split; [apply extends_refl|assumption].
Qed.

(** *** the merge of lin_comb_inner *)
Definition ls_value (m : nat -> K) (ls : list (list term * K)) : K := fsum (map (fun l => snd l * ev m (fst l)) ls).
Definition ls_ok (n : nat) (ls : list (list term * K)) : Prop := Forall (fun l => Forall plain (fst l) /\ bounded n (fst l)) ls.
Lemma pop_min_none m ls : pop_min K ls = None -> ls_value m ls = 0.
Proof.
  induction ls as [|[[|t ts] c] ls IH]; cbn; intros E; [reflexivity| |].
  - unfold ls_value; cbn. change (c * ev m [] + ls_value m ls = 0). rewrite IH by assumption. unfold ev; cbn. ring.
  - destruct (pop_min K ls) as [[[u d] r']|]; [destruct (vs_cmp _ _)|]; discriminate.
Qed.
Lemma pop_min_some m n ls : forall t c ls', pop_min K ls = Some (t, c, ls') -> ls_ok n ls ->
  ls_value m ls = c * tv m t + ls_value m ls' /\ total_terms K ls = S (total_terms K ls') /\
  ls_ok n ls' /\ plain t /\ bounded n [t].
Proof.
  induction ls as [|[[|t0 ts] c0] ls IH]; cbn [pop_min]; intros t c ls' E Ok; [discriminate| |].
  - inversion Ok as [|? ? O1 O2]; subst. destruct (IH t c ls' E O2) as (V & T & O' & Pt & Bt).
    split; [|auto]. unfold ls_value in *; cbn [map fsum fst snd]. rewrite V. unfold Expr.ev at 1; cbn. ring.
  - inversion Ok as [|? ? [O1 O1'] O2]; subst. cbn in O1, O1'.
    inversion O1 as [|? ? Pt Pts]; subst. apply bounded_cons in O1' as [Bt Bts].
    assert (G : forall r, r = ls -> pop_min K ls = None \/ True -> 
       ls_value m ((t0 :: ts, c0) :: ls) = c0 * tv m t0 + ls_value m ((ts, c0) :: ls)).
    { intros. unfold ls_value; cbn [map fsum fst snd]. rewrite ev_cons. ring. }
    destruct (pop_min K ls) as [[[u d] r']|] eqn:Ep.
    + destruct (IH u d r' eq_refl O2) as (V & T & O' & Pu & Bu).
      destruct (vs_cmp (t_vars u) (t_vars t0)) eqn:Ec; injection E as <- <- <-.
      1,3: split; [apply (G ls); auto|]; split; [reflexivity|]; split; [constructor; auto|auto].
      split; [|split; [|split; [|auto]]].
      * unfold ls_value in *; cbn [map fsum fst snd]. rewrite V. ring.
      * cbn [total_terms fold_right fst]. fold (total_terms K ls). fold (total_terms K r'). lia.
      * constructor; [|assumption]. cbn. split; [assumption|]. apply bounded_cons. auto.
    + injection E as <- <- <-. pose proof (pop_min_none m ls Ep) as Z.
      split; [|split; [|split; [|auto]]].
      * rewrite (G ls) by auto. unfold ls_value in *; cbn [map fsum fst snd]. rewrite Z. ring.
      * cbn [total_terms fold_right fst length]. fold (total_terms K ls). f_equal. f_equal.
        clear - Ep. induction ls as [|[[|t9 ts9] c9] ls IH]; cbn in *; [reflexivity|auto|].
        destruct (pop_min K ls) as [[[u d] r']|]; [destruct (vs_cmp _ _)|]; discriminate.
      * constructor; [auto|constructor].
Qed.
Lemma merge_step_ok m n t c acc : plain t -> Forall plain acc -> bounded n [t] -> bounded n acc ->
  ev m (merge_step K t c acc) = ev m acc + c * tv m t /\ Forall plain (merge_step K t c acc) /\
  bounded n (merge_step K t c acc).
Proof.
  intros Pt Pa Bt Ba. unfold merge_step.
  assert (Vt : c * tv m t = (t_coef t * c) * vs_value K gate 0 m (t_vars t)) by (rewrite tv_plain by assumption; ring).
  assert (New : plain (mkTerm (t_coef t * c) (t_vars t))) by exact Pt.
  destruct (feqb (t_coef t * c) 0) eqn:Ez.
  { apply feqb_eq in Ez. rewrite Vt, Ez. split; [ring|auto]. }
  assert (Fresh : forall acc, Forall plain acc -> bounded n acc ->
    ev m (mkTerm (t_coef t * c) (t_vars t) :: acc) = ev m acc + c * tv m t /\
    Forall plain (mkTerm (t_coef t * c) (t_vars t) :: acc) /\ bounded n (mkTerm (t_coef t * c) (t_vars t) :: acc)).
  { intros a Pa' Ba'. split; [|split; [now constructor|apply bounded_cons; split; assumption]].
    rewrite ev_cons, tv_plain by assumption. cbn. rewrite Vt. ring. }
  destruct acc as [|u r]; [apply Fresh; constructor|].
  destruct (vs_eqb (t_vars u) (t_vars t)) eqn:E; [|now apply Fresh].
  apply vs_eqb_eq in E. inversion Pa as [|? ? Pu Pr]; subst. apply bounded_cons in Ba as [Bu Br].
  destruct (feqb (t_coef u + t_coef t * c) 0) eqn:Es.
  - apply feqb_eq in Es. split; [|auto]. rewrite ev_cons, (tv_plain K gate 0 m u), Vt, E by assumption.
    assert (Z : (t_coef u + t_coef t * c) * vs_value K gate 0 m (t_vars t) = 0) by (rewrite Es; ring).
    transitivity (ev m r + (t_coef u + t_coef t * c) * vs_value K gate 0 m (t_vars t)); [rewrite Z; ring|ring].
  - split; [|split; [now constructor|apply bounded_cons; split; assumption]].
    rewrite !ev_cons, (tv_plain K gate 0 m u), Vt by assumption. rewrite tv_plain by exact Pu. cbn. rewrite E. ring.
Qed.
Lemma merge_loop_ok m n fuel : forall ls acc, (total_terms K ls <= fuel)%nat -> ls_ok n ls -> Forall plain acc -> bounded n acc ->
  ev m (merge_loop K fuel ls acc) = ev m acc + ls_value m ls /\ Forall plain (merge_loop K fuel ls acc) /\
  bounded n (merge_loop K fuel ls acc).
Proof.
  induction fuel as [|fuel IH]; intros ls acc L Ok Pa Ba; cbn [merge_loop].
  - split; [|auto]. destruct (pop_min K ls) as [[[t c] ls']|] eqn:E.
    + apply (pop_min_some m n) in E as (_ & T & _); [lia|assumption].
    + rewrite (pop_min_none m ls E). ring.
  - destruct (pop_min K ls) as [[[t c] ls']|] eqn:E.
    + destruct (pop_min_some m n ls t c ls' E Ok) as (V & T & Ok' & Pt & Bt).
      destruct (merge_step_ok m n t c acc Pt Pa Bt Ba) as (V1 & P1 & B1).
      destruct (IH ls' (merge_step K t c acc)) as (V2 & P2 & B2); auto; [lia|].
      split; [|auto]. rewrite V2, V1, V. ring.
    + split; [|auto]. rewrite (pop_min_none m ls E). ring.
Qed.

Definition vs_ok (n : nat) (vs : list (expr * K)) : Prop := Forall (fun v => wf (fst v) /\ bounded n (fst v)) vs.
Definition vs_sum (m : nat -> K) (vs : list (expr * K)) : K := fsum (map (fun v => snd v * ev m (fst v)) vs).

Lemma heads_ok vs : forall p ms ls p' ls', pinv p ms -> vs_ok (length ms) vs -> ls_ok (length ms) ls ->
  for_each vs (fun vc st =>
    let '(v, c) := vc in
    let '(p, ls) := st in
    if feqb c 0 then Some st
    else if (COMPRESS_THRESHOLD_ADD <? length v)%nat then
      let* r := to_single K kcmp p v in
      let '(p', nv) := r in
      let* _ := guard (negb (length nv =? 0)%nat) in
      Some (p', ls ++ [(nv, c)])
    else
      let* _ := guard (negb (length v =? 0)%nat) in
      Some (p, ls ++ [(v, c)])) (p, ls) = Some (p', ls') ->
  exists ms', extends ms ms' /\ pinv p' ms' /\ ls_ok (length ms') ls' /\
    ls_value (mv ms') ls' = ls_value (mv ms) ls + vs_sum (mv ms) vs.
Proof.
  induction vs as [|[v c] vs IH]; intros p ms ls p' ls' P Vo Lo E; cbn [for_each] in E.
  - injection E as <- <-. exists ms. split; [apply extends_refl|]. split; [assumption|]. split; [assumption|]. unfold vs_sum; cbn. ring.
  - inversion Vo as [|? ? [W B] Vo']; subst. cbn in W, B.
    assert (LS : forall ms1, extends ms ms1 -> ls_value (mv ms1) ls = ls_value (mv ms) ls).
    { intros ms1 X. unfold ls_value. apply fsum_ext. intros l Hl. f_equal. apply ev_extends; [assumption|].
      unfold ls_ok in Lo. rewrite Forall_forall in Lo. now apply Lo. }
    assert (VS : forall ms1, extends ms ms1 -> vs_sum (mv ms1) vs = vs_sum (mv ms) vs).
    { intros ms1 X. unfold vs_sum. apply fsum_ext. intros l Hl. f_equal. apply ev_extends; [assumption|].
      unfold vs_ok in Vo'. rewrite Forall_forall in Vo'. now apply Vo'. }
    assert (VO : forall ms1, extends ms ms1 -> vs_ok (length ms1) vs).
    { intros ms1 X. eapply Forall_impl; [|exact Vo']. cbn. intros ? [? ?]. split; [assumption|].
      eapply bounded_le; [apply extends_length, X|assumption]. }
    assert (LO : forall ms1, extends ms ms1 -> ls_ok (length ms1) ls).
    { intros ms1 X. eapply Forall_impl; [|exact Lo]. cbn. intros ? [? ?]. split; [assumption|].
      eapply bounded_le; [apply extends_length, X|assumption]. }
    assert (SUM : vs_sum (mv ms) ((v, c) :: vs) = c * ev (mv ms) v + vs_sum (mv ms) vs) by reflexivity.
    assert (LADD : forall m nv, ls_value m (ls ++ [(nv, c)]) = ls_value m ls + c * ev m nv).
    { intros m nv. unfold ls_value. rewrite map_app, fsum_app. cbn [map fsum fst snd fold_right]. ring. }
    destruct (feqb c 0) eqn:Ec; cbn [obind] in E.
    { apply feqb_eq in Ec. subst c. destruct (IH p ms ls p' ls' P Vo' Lo E) as (ms' & X & P' & O' & V').
      exists ms'. split; [assumption|]. split; [assumption|]. split; [assumption|]. rewrite V', SUM. ring. }
    destruct (COMPRESS_THRESHOLD_ADD <? length v)%nat.
    + destruct (to_single K kcmp p v) as [[p1 nv]|] eqn:Es; [|discriminate]. cbn [obind] in E.
      destruct (guard _) as [[]|]; [|discriminate]. cbn [obind] in E.
      destruct (to_single_ok p ms v p1 nv P W B Es) as (ms1 & X1 & P1 & W1 & B1 & V1).
      assert (O1 : ls_ok (length ms1) (ls ++ [(nv, c)])).
      { apply Forall_app. split; [apply LO; assumption|]. repeat constructor; [apply W1|assumption]. }
      destruct (IH p1 ms1 _ p' ls' P1 (VO ms1 X1) O1 E) as (ms' & X & P' & O' & V').
      exists ms'. split; [eapply extends_trans; eassumption|]. split; [assumption|]. split; [assumption|].
      rewrite V', LADD, V1, LS, VS, SUM by assumption. ring.
    + destruct (guard _) as [[]|]; [|discriminate]. cbn [obind] in E.
      assert (O1 : ls_ok (length ms) (ls ++ [(v, c)])).
      { apply Forall_app. split; [assumption|]. repeat constructor; [apply W|assumption]. }
      destruct (IH p ms _ p' ls' P Vo' O1 E) as (ms' & X & P' & O' & V').
      exists ms'. split; [assumption|]. split; [assumption|]. split; [assumption|].
      rewrite V', LADD, SUM. ring.
Qed.

Lemma lin_comb_inner_ok vs p ms p' e : pinv p ms -> vs_ok (length ms) vs ->
  lin_comb_inner K kcmp vs p = Some (p', e) -> good p' ms e (vs_sum (mv ms) vs).
Proof.
  intros P Vo E. destruct vs as [|[v c] [|vc2 vs]].
  - injection E as <- <-. exists ms. split; [apply extends_refl|]. split; [assumption|].
    split; [apply wf_default|]. split; [apply bounded_default|]. apply ev_default.
  - cbn [lin_comb_inner] in E. destruct (e_mul_constant v c) as [e0|] eqn:Em; [|discriminate]. cbn [obind] in E. injection E as <- <-.
    inversion Vo as [|? ? [W B] _]; subst. cbn in W, B.
    destruct (mul_constant_ok K gate 0 (mv ms) v c e0 W Em) as (W' & V & B').
    exists ms. split; [apply extends_refl|]. split; [assumption|]. split; [assumption|]. split; [auto|].
    rewrite V. unfold vs_sum; cbn [map fsum fst snd]. ring.
  - set (l := (v, c) :: vc2 :: vs) in *. unfold lin_comb_inner in E. unfold l in E at 1. cbn iota beta in E. fold l in E.
    destruct (heads K kcmp l p) as [[p1 ls]|] eqn:Eh; [|discriminate]. cbn [obind] in E.
    unfold heads in Eh.
    destruct (heads_ok l p ms [] p1 ls P Vo (Forall_nil _) Eh) as (ms1 & X1 & P1 & O1 & V1).
    destruct (merge_loop_ok (mv ms1) (length ms1) (total_terms K ls) ls [] (le_n _) O1 (Forall_nil _)) as (V2 & P2 & B2); [constructor|].
    set (acc := merge_loop K (total_terms K ls) ls []) in *. clearbody acc.
    assert (Vr : ev (mv ms1) (rev acc) = vs_sum (mv ms) l).
    { rewrite <- (ev_perm K gate 0 (mv ms1) _ _ (Permutation_rev acc)), V2, V1. unfold Expr.ev, ls_value; cbn. ring. }
    assert (Pr : Forall plain (rev acc)) by (apply Forall_rev; assumption).
    assert (Br : bounded (length ms1) (rev acc)) by (eapply bounded_perm; [apply Permutation_rev|assumption]).
    destruct (rev acc) as [|t r] eqn:Er.
    + injection E as <- <-. exists ms1. split; [assumption|]. split; [assumption|]. split; [apply wf_default|].
      split; [apply bounded_default|]. rewrite <- Vr. apply ev_default.
    + destruct (e_from_terms_sorted (t :: r)) as [e0|] eqn:Es; [|discriminate]. cbn [obind] in E. injection E as <- <-.
      destruct (from_terms_sorted_ok K _ _ Es Pr) as [-> W0].
      exists ms1. split; [assumption|]. split; [assumption|]. split; [assumption|]. split; assumption.
Qed.

Lemma good_trans p ms ms1 e v : extends ms ms1 -> good p ms1 e v -> good p ms e v.
Proof. intros X (ms' & X' & R). exists ms'. split; [eapply extends_trans; eassumption|assumption]. Qed.

Lemma omap_mul_ok m x1 v2 ts : omap (t_mul x1) v2 = Some ts ->
  Forall plain ts /\ ev m ts = tv m x1 * ev m v2 /\ (forall n, bounded n [x1] -> bounded n v2 -> bounded n ts).
Proof.
  revert ts. induction v2 as [|u v2 IH]; cbn [omap]; intros ts E.
  - injection E as <-. split; [constructor|]. split; [unfold Expr.ev; cbn; ring|auto].
  - destruct (t_mul x1 u) as [t|] eqn:Et; [|discriminate]. cbn [obind] in E.
    destruct (omap (t_mul x1) v2) as [r|]; [|discriminate]. cbn [obind] in E. injection E as <-.
    destruct (IH r eq_refl) as (Pr & Vr & Br).
    destruct (t_mul_ok K gate 0 m x1 u t Et) as (Pt & Vt & Bt).
    split; [now constructor|]. split; [rewrite !ev_cons, Vr, Vt; ring|].
    intros n B1 B2. apply bounded_cons in B2 as [B2 B3]. apply bounded_cons. auto.
Qed.
Lemma products_ok m n v2 v1 : forall vars, wf v2 -> bounded n v1 -> bounded n v2 ->
  omap (fun x1 => let* ts := omap (t_mul x1) v2 in Some (e_from_terms kcmp ts, 1)) v1 = Some vars ->
  vs_ok n vars /\ vs_sum m vars = ev m v1 * ev m v2.
Proof.
  induction v1 as [|x1 v1 IH]; cbn [omap]; intros vars W2 B1 B2 E.
  - injection E as <-. split; [constructor|]. unfold vs_sum, Expr.ev; cbn. ring.
  - destruct (omap (t_mul x1) v2) as [ts|] eqn:Et; [|discriminate]. cbn [obind] in E.
    destruct (omap _ v1) as [r|] eqn:Er in E; [|discriminate]. cbn [obind] in E. injection E as <-.
    apply bounded_cons in B1 as [Bx B1].
    destruct (IH r W2 B1 B2 Er) as [Or Vr].
    destruct (omap_mul_ok m x1 v2 ts Et) as (Pt & Vt & Bt).
    destruct (from_terms_ok K gate 0 kcmp m ts Pt) as (Wf & Vf & Bf & _).
    split; [constructor; [cbn; auto|assumption]|].
    unfold vs_sum in *. cbn [map fsum fst snd]. rewrite Vr, Vf, Vt, ev_cons. ring.
Qed.

Lemma mul_two_ok a b p ms p' e : pinv p ms -> wf a -> wf b -> bounded (length ms) a -> bounded (length ms) b ->
  mul_two_expr K kcmp a b p = Some (p', e) -> good p' ms e (ev (mv ms) a * ev (mv ms) b).
Proof.
  intros P Wa Wb Ba Bb E. unfold mul_two_expr in E.
  destruct (e_degree a) as [da|]; [|discriminate]. cbn [obind] in E.
  destruct (e_degree b) as [db|]; [|discriminate]. cbn [obind] in E.
  destruct (da =? 0)%nat.
  { destruct (e_constant_value a) as [c|] eqn:Ec; [|discriminate]. cbn [obind] in E.
    destruct (e_mul_constant b c) as [r|] eqn:Em; [|discriminate]. cbn [obind] in E. injection E as <- <-.
    destruct (mul_constant_ok K gate 0 (mv ms) b c r Wb Em) as (W' & V & B').
    exists ms. split; [apply extends_refl|]. split; [assumption|]. split; [assumption|]. split; [auto|].
    rewrite V, (constant_value_ok K gate 0 (mv ms) a c Ec). reflexivity. }
  destruct (db =? 0)%nat.
  { destruct (e_constant_value b) as [c|] eqn:Ec; [|discriminate]. cbn [obind] in E.
    destruct (e_mul_constant a c) as [r|] eqn:Em; [|discriminate]. cbn [obind] in E. injection E as <- <-.
    destruct (mul_constant_ok K gate 0 (mv ms) a c r Wa Em) as (W' & V & B').
    exists ms. split; [apply extends_refl|]. split; [assumption|]. split; [assumption|]. split; [auto|].
    rewrite V, (constant_value_ok K gate 0 (mv ms) b c Ec). ring. }
  assert (Gs : forall (q : bool) p ms x p1 x1, pinv p ms -> wf x -> bounded (length ms) x ->
    (if q then to_single K kcmp p x else Some (p, x)) = Some (p1, x1) -> good p1 ms x1 (ev (mv ms) x)).
  { intros [] q ms0 x p1 x1 Pq Wx Bx Ex; [now apply to_single_ok with (p := q)|].
    injection Ex as <- <-. exists ms0. split; [apply extends_refl|]. auto. }
  destruct (if (da =? 2)%nat then to_single K kcmp p a else Some (p, a)) as [[p1 v1]|] eqn:E1; [|discriminate]. cbn [obind] in E.
  destruct (Gs _ _ ms _ _ _ P Wa Ba E1) as (ms1 & X1 & P1 & W1 & B1 & V1). clear E1.
  destruct (if (db =? 2)%nat then to_single K kcmp p1 b else Some (p1, b)) as [[p2 v2]|] eqn:E2; [|discriminate]. cbn [obind] in E.
  assert (Bb1 : bounded (length ms1) b) by (eapply bounded_le; [apply extends_length, X1|assumption]).
  destruct (Gs _ _ ms1 _ _ _ P1 Wb Bb1 E2) as (ms2 & X2 & P2 & W2 & B2 & V2). clear E2.
  rewrite (ev_extends ms ms1 b X1 Bb) in V2.
  assert (V1' : ev (mv ms2) v1 = ev (mv ms) a) by (rewrite (ev_extends ms1 ms2 v1 X2 B1); assumption).
  assert (B1' : bounded (length ms2) v1) by (eapply bounded_le; [apply extends_length, X2|assumption]).
  eapply good_trans; [eapply extends_trans; [exact X1|exact X2]|].
  rewrite <- V1', <- V2. clear V1 V2 V1' X1 X2 B1 P1 P ms ms1 Ba Bb Bb1 Wa Wb.
  assert (G2 : exists w1 w2, (if (length v2 <? length v1)%nat then (v2, v1) else (v1, v2)) = (w1, w2) /\
     wf w1 /\ wf w2 /\ bounded (length ms2) w1 /\ bounded (length ms2) w2 /\
     ev (mv ms2) v1 * ev (mv ms2) v2 = ev (mv ms2) w1 * ev (mv ms2) w2).
  { destruct (length v2 <? length v1)%nat; do 2 eexists; (split; [reflexivity|]); repeat (split; [assumption|]); ring. }
  destruct G2 as (w1 & w2 & Ew & Ww1 & Ww2 & Bw1 & Bw2 & Vw). rewrite Ew in E. rewrite Vw. clear Ew Vw W1 W2 B1' B2 v1 v2.
  assert (G3 : forall p3 u1 u2,
    (if (COMPRESS_THRESHOLD_MUL <? length w1)%nat then
         let* t1 := to_single K kcmp p2 w1 in
         let '(p, v1) := t1 in
         let* t2 := to_single K kcmp p w2 in
         let '(p, v2) := t2 in Some (p, v1, v2)
       else if (COMPRESS_THRESHOLD_MUL <? (length w1 * length w2))%nat then
         let* t2 := to_single K kcmp p2 w2 in
         let '(p, v2) := t2 in Some (p, w1, v2)
       else Some (p2, w1, w2)) = Some (p3, u1, u2) ->
    exists ms3, extends ms2 ms3 /\ pinv p3 ms3 /\ wf u1 /\ wf u2 /\ bounded (length ms3) u1 /\ bounded (length ms3) u2 /\
      ev (mv ms3) u1 = ev (mv ms2) w1 /\ ev (mv ms3) u2 = ev (mv ms2) w2).
  { intros p3 u1 u2 E3. destruct (COMPRESS_THRESHOLD_MUL <? length w1)%nat.
    - destruct (to_single K kcmp p2 w1) as [[q1 y1]|] eqn:F1; [|discriminate]. cbn [obind] in E3.
      destruct (to_single K kcmp q1 w2) as [[q2 y2]|] eqn:F2; [|discriminate]. cbn [obind] in E3. injection E3 as <- <- <-.
      destruct (to_single_ok _ _ _ _ _ P2 Ww1 Bw1 F1) as (m1 & X1 & Q1 & U1 & C1 & V1).
      destruct (to_single_ok q1 m1 w2 q2 y2) as (m2 & X2 & Q2 & U2 & C2 & V2); auto.
      { eapply bounded_le; [apply extends_length, X1|assumption]. }
      exists m2. split; [eapply extends_trans; eassumption|]. split; [assumption|]. split; [assumption|]. split; [assumption|].
      split; [eapply bounded_le; [apply extends_length, X2|assumption]|]. split; [assumption|].
      split; [rewrite (ev_extends m1 m2) by assumption; assumption|]. rewrite V2. now apply ev_extends.
    - destruct (COMPRESS_THRESHOLD_MUL <? length w1 * length w2)%nat.
      + destruct (to_single K kcmp p2 w2) as [[q1 y1]|] eqn:F1; [|discriminate]. cbn [obind] in E3. injection E3 as <- <- <-.
        destruct (to_single_ok _ _ _ _ _ P2 Ww2 Bw2 F1) as (m1 & X1 & Q1 & U1 & C1 & V1).
        exists m1. split; [assumption|]. split; [assumption|]. split; [assumption|]. split; [assumption|].
        split; [eapply bounded_le; [apply extends_length, X1|assumption]|]. split; [assumption|].
        split; [now apply ev_extends|assumption].
      + injection E3 as <- <- <-. exists ms2. split; [apply extends_refl|]. repeat (split; [assumption|]). split; reflexivity. }
  destruct (if (COMPRESS_THRESHOLD_MUL <? length w1)%nat then _ else _) as [[[p3 u1] u2]|] eqn:E3 in E; [|discriminate]. cbn [obind] in E.
  destruct (G3 p3 u1 u2 E3) as (ms3 & X3 & P3 & Wu1 & Wu2 & Bu1 & Bu2 & Vu1 & Vu2). clear G3 E3.
  destruct (omap _ u1) as [vars|] eqn:Eo in E; [|discriminate]. cbn [obind] in E.
  destruct (products_ok (mv ms3) (length ms3) u2 u1 vars Wu2 Bu1 Bu2 Eo) as [Ov Vv].
  eapply good_trans; [exact X3|]. rewrite <- Vu1, <- Vu2, <- Vv. now apply lin_comb_inner_ok with (p := p3).
Qed.
End NormalizeExpr.
