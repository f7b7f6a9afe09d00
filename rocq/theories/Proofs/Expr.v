(** Facts about the expressions of the compiler (Model/Expr.v): every operation
    keeps expressions sorted, and has the expected value. *)
From Coq Require Import List Bool Arith Lia Permutation Sorted Ring Field.
Import ListNotations.
From Verif Require Import Base.Array Base.Field Model.Expr.

(** ** The order of variables *)
Lemma lex_cmp_eq a : forall b, lex_cmp a b = Eq <-> a = b.
Proof.
  induction a as [|x r IH]; destruct b as [|y s]; cbn; try (split; congruence).
  destruct (Nat.compare_spec x y) as [e|l|l].
  - subst. rewrite IH. split; congruence.
  - split; [discriminate|]. intros E; injection E; intros; lia.
  - split; [discriminate|]. intros E; injection E; intros; lia.
Qed.
Lemma lex_cmp_opp a : forall b, lex_cmp b a = CompOpp (lex_cmp a b).
Proof.
  induction a as [|x r IH]; destruct b as [|y s]; cbn; try reflexivity.
  rewrite (Nat.compare_antisym x y). destruct (x ?= y); cbn; auto.
Qed.
Lemma lex_cmp_lt_trans a : forall b c, lex_cmp a b = Lt -> lex_cmp b c = Lt -> lex_cmp a c = Lt.
Proof.
  induction a as [|x r IH]; destruct b as [|y s]; destruct c as [|z t]; cbn; try congruence.
  destruct (Nat.compare_spec x y); destruct (Nat.compare_spec y z); try congruence; subst; intros;
    try (destruct (Nat.compare_spec x z); try lia; auto); try (destruct (Nat.compare_spec y z); try lia; eauto).
  all: destruct (Nat.compare_spec z z); try lia; eauto.
Qed.
Lemma vs_code_inj a b : vs_code a = vs_code b -> a = b.
Proof. destruct a, b; cbn; congruence. Qed.
Lemma vs_cmp_eq a b : vs_cmp a b = Eq <-> a = b.
Proof. unfold vs_cmp. rewrite lex_cmp_eq. split; [apply vs_code_inj|congruence]. Qed.
Lemma vs_cmp_refl a : vs_cmp a a = Eq. Proof. now apply vs_cmp_eq. Qed.
Lemma vs_cmp_opp a b : vs_cmp b a = CompOpp (vs_cmp a b).
Proof. apply lex_cmp_opp. Qed.
Lemma vs_cmp_trans a b c : vs_cmp a b = Lt -> vs_cmp b c = Lt -> vs_cmp a c = Lt.
Proof. apply lex_cmp_lt_trans. Qed.
Lemma vs_eqb_eq a b : vs_eqb a b = true <-> a = b.
Proof.
  unfold vs_eqb. rewrite <- vs_cmp_eq. destruct (vs_cmp a b); split; congruence.
Qed.
Lemma vs_ltb_lt a b : vs_ltb a b = true <-> vs_cmp a b = Lt.
Proof. unfold vs_ltb. destruct (vs_cmp a b); split; congruence. Qed.

(** ** Sorting *)
Section Sorting.
Context {A : Type}.
Variable cmp : A -> A -> comparison.
Lemma insert_perm x l : Permutation (insert cmp x l) (x :: l).
Proof.
  induction l as [|y r IH]; cbn; [reflexivity|].
  destruct (cmp x y); try reflexivity.
  rewrite IH. apply perm_swap.
Qed.
Lemma sort_by_perm l : Permutation (sort_by cmp l) l.
Proof.
  induction l as [|x r IH]; cbn; [reflexivity|].
  rewrite insert_perm. now constructor.
Qed.
Lemma sort_by_length l : length (sort_by cmp l) = length l.
Proof. apply Permutation_length, sort_by_perm. Qed.
Variable le : A -> A -> Prop.
Hypothesis le_trans : forall a b c, le a b -> le b c -> le a c.
Hypothesis cmp_le : forall a b, cmp a b <> Gt -> le a b.
Hypothesis cmp_gt : forall a b, cmp a b = Gt -> le b a.
Lemma insert_sorted x l : StronglySorted le l -> StronglySorted le (insert cmp x l).
Proof.
  induction 1 as [|y r Hr IH Hy]; cbn; [repeat constructor|].
  assert (G : cmp x y <> Gt -> StronglySorted le (x :: y :: r)).
  { intros G. constructor; [now constructor|]. constructor; [auto|].
    eapply Forall_impl; [|exact Hy]. cbn. intros. eapply le_trans; [|eassumption]. auto. }
  destruct (cmp x y) eqn:E; try (apply G; congruence).
  constructor; [assumption|].
  rewrite (Forall_forall (le y)). intros z Hz.
  apply (Permutation_in z (insert_perm x r)) in Hz. destruct Hz as [<-|Hz]; [auto|].
  rewrite Forall_forall in Hy. auto.
Qed.
Lemma sort_by_sorted l : StronglySorted le (sort_by cmp l).
Proof. induction l; cbn; [constructor|]. now apply insert_sorted. Qed.
End Sorting.

Section Expr.
Variable K : field.
Add Field Kfield_expr : (fth K).
Local Set Default Proof Using "Type".
Local Open Scope fld_scope.
Notation expr := (Expr.expr K).
Notation term := (Expr.term K).

Lemma term_eqb_eq (a b : term) : term_eqb a b = true <-> a = b.
Proof.
  unfold term_eqb. rewrite andb_true_iff, feqb_eq, vs_eqb_eq.
  destruct a, b; cbn; split; [intros [-> ->]; reflexivity | intros E; injection E; auto].
Qed.
Lemma expr_eqb_eq (a : expr) : forall b, expr_eqb a b = true <-> a = b.
Proof.
  induction a as [|x r IH]; destruct b as [|y s]; cbn; try (split; congruence).
  rewrite andb_true_iff, term_eqb_eq, IH. split; [intros [-> ->]; reflexivity | intros E; injection E; auto].
Qed.
Lemma expr_eqb_refl (a : expr) : expr_eqb a a = true. Proof. now apply expr_eqb_eq. Qed.

(** ** Values *)
Variable gate : nat -> list K -> K.
Variable rnd : K.
Definition vs_value (m : nat -> K) (v : varspec) : K :=
  match v with
  | VConst => 1
  | VLin x => m x
  | VQuad x y => m x * m y
  | VCustom g ins => gate g (map m ins)
  | VRandom x => rnd * m x
  end.
(** in a random term the coefficient is ignored (expr.rs:28) *)
Definition tv (m : nat -> K) (t : term) : K :=
  match t_vars t with
  | VRandom x => rnd * m x
  | v => t_coef t * vs_value m v
  end.
Definition ev (m : nat -> K) (e : list term) : K := fsum (map (tv m) e).

Definition plain (t : term) : Prop := match t_vars t with VRandom _ => False | _ => True end.
Definition lt_t (a b : term) : Prop := vs_cmp (t_vars a) (t_vars b) = Lt.
Definition wf (e : expr) : Prop := StronglySorted lt_t e /\ Forall plain e.
Definition bounded (n : nat) (e : list term) : Prop := Forall (fun x => (x < n)%nat) (e_vars e).

Lemma tv_plain m t : plain t -> tv m t = t_coef t * vs_value m (t_vars t).
Proof. unfold tv, plain. destruct (t_vars t); intros G; try reflexivity. destruct G. Qed.
Lemma ev_cons m t e : ev m (t :: e) = tv m t + ev m e. Proof. reflexivity. Qed.
Lemma ev_app m a b : ev m (a ++ b) = ev m a + ev m b.
Proof. unfold ev. rewrite map_app. apply fsum_app. Qed.
Lemma ev_perm m a b : Permutation a b -> ev m a = ev m b.
Proof. intros P. unfold ev. apply fsum_perm. now apply Permutation_map. Qed.
Lemma ev_const m c : ev m (e_const c) = c.
Proof. unfold ev, e_const; cbn. unfold tv; cbn. ring. Qed.
Lemma ev_default m : ev m e_default = 0.
Proof. unfold ev, e_default; cbn. unfold tv; cbn. ring. Qed.
Lemma ev_linear m c x : ev m (e_linear c x) = c * m x.
Proof. unfold ev, e_linear; cbn. unfold tv; cbn. ring. Qed.
Lemma wf_const c : wf (e_const c).
Proof. split; [|constructor]; repeat constructor. Qed.
Lemma wf_default : wf e_default. Proof. apply wf_const. Qed.
Lemma wf_linear c x : wf (e_linear c x).
Proof. split; [|constructor]; repeat constructor. Qed.
Lemma bounded_const n c : bounded n (e_const c). Proof. constructor. Qed.
Lemma bounded_default n : bounded n e_default. Proof. constructor. Qed.
Lemma bounded_linear n c x : (x < n)%nat -> bounded n (e_linear c x).
Proof. intros. repeat constructor. assumption. Qed.
Lemma bounded_le n n' e : (n <= n')%nat -> bounded n e -> bounded n' e.
Proof. intros L. apply Forall_impl. intros; lia. Qed.
Lemma bounded_cons n t e : bounded n (t :: e) <-> bounded n [t] /\ bounded n e.
Proof. unfold bounded. cbn. rewrite app_nil_r, Forall_app. reflexivity. Qed.
Lemma bounded_in n e : bounded n e <-> forall t, In t e -> bounded n [t].
Proof.
  induction e as [|t e IH]; [split; [intros _ t []|constructor]|].
  rewrite bounded_cons, IH. cbn. split; [intros [? ?] u [<-|?]; auto | auto].
Qed.
Lemma bounded_app n a b : bounded n (a ++ b) <-> bounded n a /\ bounded n b.
Proof. 
  rewrite !bounded_in. setoid_rewrite in_app_iff. split.
  - intros G. split; intros t Ht; apply G; auto.
  - intros [G1 G2] t [Ht|Ht]; auto.
Qed.
Lemma bounded_perm n a b : Permutation a b -> bounded n a -> bounded n b.
Proof. rewrite !bounded_in. intros P G t Ht. apply G. eapply Permutation_in; [symmetry; exact P|assumption]. Qed.

(** the value only depends on the variables that occur *)
Lemma tv_ext m m' t : (forall x, In x (vs_vars (t_vars t)) -> m x = m' x) -> tv m t = tv m' t.
Proof.
  unfold tv. destruct (t_vars t); cbn; intros E; auto.
  - f_equal. auto.
  - f_equal. f_equal; auto.
  - f_equal. f_equal. apply map_ext_in. auto.
  - f_equal; auto.
Qed.
Lemma ev_ext n m m' e : bounded n e -> (forall x, (x < n)%nat -> m x = m' x) -> ev m e = ev m' e.
Proof.
  intros B E. unfold ev. apply fsum_ext. intros t Ht. apply tv_ext. intros x Hx. apply E.
  rewrite bounded_in in B. specialize (B t Ht). unfold bounded in B. cbn in B. rewrite app_nil_r, Forall_forall in B. auto.
Qed.

(** *** normalisation of terms *)
Opaque Nat.ltb.
Lemma t_normalize_value m t : tv m (t_normalize t) = tv m t.
Proof.
  destruct t as [c v]. unfold tv, t_normalize; cbn. destruct v; cbn; auto.
  destruct (x <? y)%nat; cbn; ring.
Qed.
Lemma t_normalize_plain t : plain t -> plain (t_normalize t).
Proof. destruct t as [c v]. unfold plain; cbn. destruct v; cbn; auto. destruct (x <? y)%nat; auto. Qed.
Lemma t_normalize_bounded n t : bounded n [t] -> bounded n [t_normalize t].
Proof.
  destruct t as [c v]. unfold bounded; cbn. destruct v; cbn; auto. destruct (x <? y)%nat; cbn; auto.
  intros F. inversion F as [|? ? ? F']; subst. inversion F'; subst. repeat constructor; auto.
Qed.
Lemma map_normalize_ev m l : ev m (map t_normalize l) = ev m l.
Proof. unfold ev. rewrite map_map. apply fsum_ext. intros; apply t_normalize_value. Qed.

Transparent Nat.ltb.

(** *** compress *)
Definition le_t (a b : term) : Prop := vs_cmp (t_vars a) (t_vars b) <> Gt.
Lemma le_t_trans a b c : le_t a b -> le_t b c -> le_t a c.
Proof.
  unfold le_t. destruct (vs_cmp (t_vars a) (t_vars b)) eqn:E1; try congruence; intros _.
  - apply vs_cmp_eq in E1. now rewrite E1.
  - destruct (vs_cmp (t_vars b) (t_vars c)) eqn:E2; try congruence; intros _.
    + apply vs_cmp_eq in E2. rewrite <- E2. congruence.
    + rewrite (vs_cmp_trans _ _ _ E1 E2). congruence.
Qed.
Variable kcmp : K -> K -> comparison.
Lemma sort_terms_sorted l : StronglySorted le_t (sort_by (term_cmp kcmp) l).
Proof.
  apply sort_by_sorted; [exact le_t_trans| |]; unfold term_cmp, le_t; intros a b.
  - destruct (vs_cmp (t_vars a) (t_vars b)); congruence.
  - rewrite (vs_cmp_opp (t_vars a)). destruct (vs_cmp (t_vars a) (t_vars b)); cbn; congruence.
Qed.
Lemma merge_adjacent_ok m r : forall cur, StronglySorted le_t (cur :: r) -> Forall plain (cur :: r) ->
  ev m (merge_adjacent cur r) = ev m (cur :: r) /\
  StronglySorted lt_t (merge_adjacent cur r) /\ Forall plain (merge_adjacent cur r) /\
  (forall n, bounded n (cur :: r) -> bounded n (merge_adjacent cur r)) /\
  (forall t, In t (merge_adjacent cur r) -> le_t cur t).
Proof.
  induction r as [|t r IH]; intros cur S P; cbn [merge_adjacent].
  - split; [reflexivity|]. split; [repeat constructor|]. split; [auto|]. split; [auto|].
    intros t [<-|[]]. unfold le_t. rewrite vs_cmp_refl. congruence.
  - inversion S as [|? ? S' F]; subst. inversion P as [|? ? Pc P']; subst.
    inversion S' as [|? ? S'' F']; subst. inversion P' as [|? ? Pt P'']; subst.
    inversion F as [|? ? Fc Fr]; subst.
    destruct (vs_eqb (t_vars cur) (t_vars t)) eqn:E.
    + apply vs_eqb_eq in E.
      destruct (IH (mkTerm (t_coef cur + t_coef t) (t_vars cur))) as (V & St & Pl & B & L).
      { constructor; [assumption|]. exact Fr. }
      { constructor; [exact Pc|assumption]. }
      split; [|split; [assumption|split; [assumption|split]]].
      * rewrite V, !ev_cons. rewrite !tv_plain; try assumption. cbn. rewrite E. ring.
      * intros n Bn. apply B. apply bounded_cons in Bn as [B1 B2]. apply bounded_cons in B2 as [_ B2].
        apply bounded_cons. split; assumption.
      * exact L.
    + destruct (IH t S' P') as (V & St & Pl & B & L).
      assert (Lt : lt_t cur t).
      { unfold lt_t, le_t in *. unfold vs_eqb in E. destruct (vs_cmp (t_vars cur) (t_vars t)); congruence. }
      split; [|split; [|split; [|split]]].
      * rewrite ev_cons, V. reflexivity.
      * constructor; [assumption|]. rewrite Forall_forall. intros u Hu. specialize (L u Hu).
        unfold lt_t, le_t in *. destruct (vs_cmp (t_vars t) (t_vars u)) eqn:E2; try congruence.
        { apply vs_cmp_eq in E2. rewrite <- E2. assumption. }
        { eapply vs_cmp_trans; eassumption. }
      * now constructor.
      * intros n Bn. apply bounded_cons in Bn as [B1 B2]. apply bounded_cons. split; auto.
      * intros u [<-|Hu]; [unfold le_t; rewrite vs_cmp_refl; congruence|].
        eapply le_t_trans; [unfold le_t; rewrite Lt; congruence|auto].
Qed.
Lemma StronglySorted_filter {A} (R : A -> A -> Prop) f l : StronglySorted R l -> StronglySorted R (filter f l).
Proof.
  induction 1 as [|x r Hr IH Hx]; cbn; [constructor|]. destruct (f x); [|assumption].
  constructor; [assumption|]. rewrite Forall_forall in *. intros y Hy. apply filter_In in Hy as [Hy _]. apply Hx. exact Hy.
Qed.
Lemma Forall_filter {A} (P : A -> Prop) f l : Forall P l -> Forall P (filter f l).
Proof. rewrite !Forall_forall. intros G x Hx. apply filter_In in Hx as [Hx _]. apply G. exact Hx. Qed.
Lemma or_default_ok m l : StronglySorted lt_t l -> Forall plain l ->
  wf (or_default l) /\ ev m (or_default l) = ev m l /\ (forall n, bounded n l -> bounded n (or_default l)) /\ or_default l <> [].
Proof.
  destruct l; cbn [or_default]; intros S P.
  - split; [apply wf_default|]. split; [rewrite ev_default; reflexivity|]. split; [intros; apply bounded_default|]. discriminate.
  - split; [now split|]. split; [reflexivity|]. split; [auto|discriminate].
Qed.
Lemma filter_non_zero_ev m l : Forall plain l -> ev m (filter non_zero_term l) = ev m l.
Proof.
  induction 1 as [|t l Ht P IH]; [reflexivity|]. cbn [filter]. unfold non_zero_term at 1.
  destruct (feqb (t_coef t) 0) eqn:E; cbn [negb].
  - apply feqb_eq in E. rewrite IH, (ev_cons m t), tv_plain, E by assumption. ring.
  - rewrite !ev_cons, IH. reflexivity.
Qed.
Lemma from_terms_ok m l : Forall plain l ->
  wf (e_from_terms kcmp l) /\ ev m (e_from_terms kcmp l) = ev m l /\
  (forall n, bounded n l -> bounded n (e_from_terms kcmp l)) /\ e_from_terms kcmp l <> [].
Proof.
  intros P. unfold e_from_terms, compress.
  set (s := sort_by (term_cmp kcmp) (map t_normalize l)).
  assert (Ps : Permutation s (map t_normalize l)) by apply sort_by_perm.
  assert (Ss : StronglySorted le_t s) by apply sort_terms_sorted.
  assert (Pl : Forall plain s).
  { eapply Permutation_Forall; [symmetry; exact Ps|]. rewrite Forall_map. eapply Forall_impl; [|exact P]. apply t_normalize_plain. }
  assert (Es : ev m s = ev m l) by (rewrite (ev_perm _ _ _ Ps); apply map_normalize_ev).
  assert (Bs : forall n, bounded n l -> bounded n s).
  { intros n B. apply (bounded_perm n (map t_normalize l)); [symmetry; exact Ps|].
    apply bounded_in. intros t Ht. apply in_map_iff in Ht as (u & <- & Hu). apply t_normalize_bounded.
    rewrite bounded_in in B. auto. }
  clearbody s. clear Ps.
  assert (G : exists r, match s with [] => [] | t :: r => merge_adjacent t r end = r /\ StronglySorted lt_t r /\
    Forall plain r /\ ev m r = ev m s /\ (forall n, bounded n s -> bounded n r)).
  { destruct s as [|t r]; [exists []; repeat split; auto; constructor|].
    destruct (merge_adjacent_ok m r t Ss Pl) as (V & St & Pt & B & _).
    eexists. split; [reflexivity|]. auto. }
  destruct G as (r & -> & Sr & Pr & Er & Br).
  destruct (or_default_ok m (filter non_zero_term r)) as (W & V & B & N).
  { now apply StronglySorted_filter. } { now apply Forall_filter. }
  split; [assumption|]. split; [rewrite V, filter_non_zero_ev, Er; assumption|]. split; [|assumption].
  intros n Bn. apply B. rewrite bounded_in. intros t Ht. apply filter_In in Ht as [Ht _].
  specialize (Br n (Bs n Bn)). rewrite bounded_in in Br. auto.
Qed.

Lemma increasing_sorted l : increasing l = true -> StronglySorted lt_t l.
Proof.
  intros E. apply Sorted_StronglySorted; [intros a b c; apply vs_cmp_trans|].
  induction l as [|a r IH]; [constructor|]. cbn in E.
  destruct r as [|b r]; [repeat constructor|].
  apply andb_true_iff in E as [E1 E2]. constructor; [auto|]. constructor. now apply vs_ltb_lt.
Qed.
Lemma guard_some b u : guard b = Some u -> b = true.
Proof. unfold guard. destruct b; congruence. Qed.
Lemma from_terms_sorted_ok l e : e_from_terms_sorted l = Some e -> Forall plain l ->
  e = or_default l /\ wf e.
Proof.
  unfold e_from_terms_sorted. intros E P.
  destruct (guard (forallb _ _)) eqn:E1 in E; cbn in E; [|discriminate].
  destruct (guard (increasing _)) eqn:E2 in E; cbn in E; [|discriminate]. injection E as <-.
  apply guard_some in E2. split; [reflexivity|]. split; [now apply increasing_sorted|].
  destruct l; [repeat constructor|assumption].
Qed.

(** *** scaling *)
Definition scale_terms (v : K) (e : list term) : list term := map (fun t => mkTerm (t_coef t * v) (t_vars t)) e.
Lemma scale_ev m v e : Forall plain e -> ev m (scale_terms v e) = v * ev m e.
Proof.
  induction 1 as [|t e Ht P IH]; [unfold ev; cbn; ring|].
  cbn [scale_terms map]. rewrite !ev_cons. fold (scale_terms v e). rewrite IH, !tv_plain; try assumption. cbn. ring.
Qed.
Lemma scale_plain v e : Forall plain e -> Forall plain (scale_terms v e).
Proof. unfold scale_terms. rewrite Forall_map. apply Forall_impl. auto. Qed.
Lemma scale_vars v e : e_vars (scale_terms v e) = e_vars e.
Proof. unfold e_vars, scale_terms. rewrite flat_map_concat_map, map_map. cbn. now rewrite <- flat_map_concat_map. Qed.
Lemma scale_bounded n v e : bounded n (scale_terms v e) <-> bounded n e.
Proof. unfold bounded. now rewrite scale_vars. Qed.
Lemma mul_constant_ok m e v e' : wf e -> e_mul_constant e v = Some e' ->
  wf e' /\ ev m e' = v * ev m e /\ (forall n, bounded n e -> bounded n e').
Proof.
  intros [S P] E. unfold e_mul_constant in E. destruct (feqb v 0) eqn:Ev.
  - injection E as <-. apply feqb_eq in Ev. subst.
    split; [apply wf_default|]. split; [rewrite ev_default; ring|]. intros; apply bounded_default.
  - fold (scale_terms v e) in E. destruct (from_terms_sorted_ok _ _ E (scale_plain v e P)) as [-> W].
    split; [assumption|]. split.
    + destruct e as [|t e]; [cbn [scale_terms map or_default]; rewrite ev_default; unfold ev; cbn; ring|].
      cbn [scale_terms map or_default]. apply (scale_ev m v (t :: e)). assumption.
    + intros n B. destruct e; [apply bounded_default|]. apply (scale_bounded n v) in B. exact B.
Qed.

Lemma constant_value_ok m e c : e_constant_value e = Some c -> ev m e = c.
Proof.
  destruct e as [|[k v] [|? ?]]; cbn; try discriminate. destruct v; try discriminate. intros [= <-].
  unfold ev; cbn. unfold tv; cbn. ring.
Qed.
Lemma t_mul_ok m a b t : t_mul a b = Some t -> plain t /\ tv m t = tv m a * tv m b /\
  (forall n, bounded n [a] -> bounded n [b] -> bounded n [t]).
Proof.
  unfold t_mul. destruct a as [ca va], b as [cb vb]; cbn [t_vars t_coef].
  destruct va, vb; cbn; intros E; try discriminate; injection E as <-;
    (split; [exact I|split; [unfold tv; cbn; ring|intros n B1 B2]]);
    unfold bounded in *; cbn in *; rewrite ?app_nil_r in *; try assumption; try constructor; try (inversion B1; assumption).
Qed.
End Expr.
