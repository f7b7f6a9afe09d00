(** The first compiler pass on whole circuits (Model/Normalize.v,
    process_circuit and process_root). *)
From Coq Require Import List Bool Arith Lia Permutation Ring Field.
Import ListNotations.
From Verif Require Import Base.Array Base.Field Model.Expr Model.Ir Model.Containers Model.Normalize
  Spec.CircuitMeaning Proofs.Expr Proofs.NormalizeExpr Proofs.NormalizeBuild Proofs.NormalizePush Proofs.NormalizeStep.
From Verif Require Model.Layered.

Section Circ.
Variable K : field.
Add Field Kfield_circ : (fth K).
Local Open Scope fld_scope.
Notation expr := (Expr.expr K).
Notation builder := (builder K).
Variable kcmp : K -> K -> comparison.
Variable un_eval : un_op -> K -> K -> option K.
Variable gate : nat -> list K -> K.
Variable cv : Layered.coef K -> K.
Hypothesis cv_const : forall c, cv (Layered.Constant c) = c.
Notation Sinv := (Sinv K gate).
Notation ev := (Expr.ev K gate 0).
Notation mv := (NormalizeExpr.mv K).
Notation hints := (hint_id -> list K -> list K -> Prop).
Notation step H := (hn_step K cv gate H).
Notation R H := (runs K (hn_step K cv gate H)).
Notation trans := (trans K gate cv).
Notation len b := (length (b_oexprs K b)).
Notation asserted := (asserted K).
Notation allows := (allows K un_eval).
Notation computes := (computes K un_eval).
Notation marks_ok := (marks_ok K gate cv).
Notation group := (group K un_eval gate cv).
Notation sstep H := (src_step K cv gate H).
Notation SR H := (runs K (src_step K cv gate H)).
Local Set Default Proof Using "Type".

(** *** renaming of variables *)
Section Rename.
Variables (ito : list nat) (vals svals : list K).
Hypothesis Sim : at_all vals ito = Some svals.
Lemma omap_nth {A B} (f : A -> option B) l : forall r i, omap f l = Some r ->
  nth_error r i = match nth_error l i with Some x => f x | None => None end.
Proof.
  induction l as [|x l IH]; intros r i E.
  - injection E as <-. destruct i; reflexivity.
  - apply omap_cons_some in E as (y & s & E1 & E2 & ->). destruct i; cbn; [congruence|auto].
Qed.
Lemma rename_var x x' : nth_error ito x = Some x' -> exists a, nth_error svals x = Some a /\ nth_error vals x' = Some a.
Proof using Sim.
  intros E. pose proof (omap_nth (nth_error vals) ito svals x Sim) as G. rewrite E in G.
  destruct (nth_error svals x) as [a|] eqn:Es; [eauto|]. exfalso.
  apply nth_error_None in Es. assert (x < length ito)%nat by (apply nth_error_Some; congruence).
  assert (Ls : length svals = length ito).
  { clear - Sim. unfold at_all in Sim. revert svals Sim. induction ito as [|z l IH]; intros sv E; [injection E as <-; reflexivity|].
    apply omap_cons_some in E as (y & s & _ & E2 & ->). cbn. f_equal. auto. }
  lia.
Qed.
Lemma rename_vars xs : forall xs', omap (nth_error ito) xs = Some xs' -> at_all svals xs = at_all vals xs' /\
  exists vs, at_all vals xs' = Some vs.
Proof using Sim.
  unfold at_all. induction xs as [|x xs IH]; intros xs' E.
  - injection E as <-. split; [reflexivity|eexists; reflexivity].
  - apply omap_cons_some in E as (y & s & E1 & E2 & ->). destruct (IH _ E2) as (Ea & vs & Ev).
    destruct (rename_var _ _ E1) as (a & A1 & A2). cbn [omap]. rewrite A1, A2. cbn [obind]. rewrite Ea, Ev. cbn. eauto.
Qed.
Lemma rename_lc lc lc' : lc_replace (nth_error ito) lc = Some lc' -> lc_value svals lc = lc_value vals lc'.
Proof using Sim.
  unfold lc_replace, lc_value. intros E. ob E. injection E as <-. cbn [lc_terms lc_const].
  assert (G : omap (fun t : nat * K => let* v := nth_error svals (fst t) in Some (v * snd t)) (lc_terms lc) =
              omap (fun t : nat * K => let* v := nth_error vals (fst t) in Some (v * snd t)) a).
  { revert a E0. generalize (lc_terms lc). induction l as [|[x k] l IH]; intros r E0.
    - injection E0 as <-. reflexivity.
    - apply omap_cons_some in E0 as (y & s & E1 & E2 & ->). cbn [fst] in E1. ob E1. injection E1 as <-.
      destruct (rename_var _ _ E) as (q & A1 & A2). cbn [omap fst snd]. rewrite A1, A2. cbn [obind]. rewrite (IH _ E2). reflexivity. }
  now rewrite G.
Qed.
Lemma rename_step H call i im outs : src_replace (nth_error ito) i = Some im -> (sstep H call svals i outs <-> sstep H call vals im outs).
Proof using Sim.
  intros E. destruct i as [i|x y ch|x y op|x|xs|x y op|c t f|x n]; cbn [src_replace] in E.
  - ob E. injection E as <-. destruct i as [[lc|xs|c|id ins n|g ins]|h ins n]; cbn [hn_replace hl_replace] in E0.
    + ob E0. injection E0 as <-. ob E. injection E as <-. cbn. rewrite (rename_lc _ _ E0). reflexivity.
    + ob E0. injection E0 as <-. ob E. injection E as <-. cbn. destruct (rename_vars _ _ E0) as [-> _]. reflexivity.
    + cbn in E0. injection E0 as <-. reflexivity.
    + ob E0. injection E0 as <-. ob E. injection E as <-. cbn. destruct (rename_vars _ _ E0) as [-> _]. reflexivity.
    + ob E0. injection E0 as <-. ob E. injection E as <-. cbn. destruct (rename_vars _ _ E0) as [-> _]. reflexivity.
    + ob E0. injection E0 as <-. cbn. destruct (rename_vars _ _ E) as [-> _]. reflexivity.
  - ob E. ob E. injection E as <-. cbn. destruct (rename_var _ _ E0) as (p & -> & ->). destruct (rename_var _ _ E1) as (q & -> & ->). reflexivity.
  - ob E. ob E. injection E as <-. cbn. destruct (rename_var _ _ E0) as (p & -> & ->). destruct (rename_var _ _ E1) as (q & -> & ->). reflexivity.
  - ob E. injection E as <-. cbn. destruct (rename_var _ _ E0) as (p & -> & ->). reflexivity.
  - ob E. injection E as <-. reflexivity.
  - ob E. ob E. injection E as <-. cbn. destruct (rename_var _ _ E0) as (p & -> & ->). destruct (rename_var _ _ E1) as (q & -> & ->). reflexivity.
  - ob E. ob E. ob E. injection E as <-. cbn. destruct (rename_var _ _ E0) as (p & -> & ->). destruct (rename_var _ _ E1) as (q & -> & ->).
    destruct (rename_var _ _ E2) as (r & -> & ->). reflexivity.
  - ob E. injection E as <-. cbn. destruct (rename_var _ _ E0) as (p & -> & ->). reflexivity.
Qed.
End Rename.
Lemma replace_scope ito i im (P : nat -> Prop) : Forall P ito -> src_replace (nth_error ito) i = Some im -> Forall P (rich_vars K im).
Proof.
  intros F E. assert (G : forall x y, nth_error ito x = Some y -> P y).
  { intros x y Hx. rewrite Forall_forall in F. apply F. eapply nth_error_In, Hx. }
  destruct i; cbn [src_replace] in E; repeat (ob E); injection E as <-; cbn [rich_vars]; repeat constructor; eauto.
Qed.
Lemma replace_outputs f (i im : src_insn K) : src_replace f i = Some im -> src_outputs im = src_outputs i /\ is_bool_op K im = is_bool_op K i.
Proof.
  destruct i as [i| | | | | | |]; cbn [src_replace]; intros E; try (repeat (ob E); injection E as <-; cbn; auto; fail).
  ob E. injection E as <-. destruct i as [[]|]; cbn [hn_replace hl_replace] in E0; repeat (ob E0); try (injection E0 as <-); cbn; auto.
  all: repeat (ob E); try (injection E as <-); auto.
Qed.

(** *** one source instruction *)
Definition process_core (im : src_insn K) (n : nat) (b : builder) : option (builder * list nat) :=
  let* s := transform K kcmp un_eval im b in
  let '(b, r) := s in
  match r with
  | TInsn _ o =>
    let* _ := guard (hn_outputs o =? n)%nat in
    let start := len b in
    let* b := push K kcmp o b in
    Some (b, seq start n)
  | TVars _ xs => let* _ := guard (length xs =? n)%nat in Some (b, xs)
  end.
Lemma process_insn_core i b b' : process_insn K kcmp un_eval i b = Some b' ->
  exists im b1 xs, src_replace (nth_error (b_in_to_out K b)) i = Some im /\ process_core im (src_outputs i) b = Some (b1, xs) /\ b' = with_ins K b1 xs.
Proof.
  unfold process_insn, process_core. intros E. ob E. ob E. destruct a0 as [b1 [o|xs]].
  - ob E. ob E. injection E as <-. exists a, a1, (seq (len b1) (src_outputs i)). rewrite E1. cbn [obind]. rewrite E2. cbn [obind]. rewrite E3. auto.
  - ob E. injection E as <-. exists a, b1, xs. rewrite E1. cbn [obind]. rewrite E2. auto.
Qed.
Lemma core_ok im n b b' xs : Forall (in_scope K b) (rich_vars K im) -> process_core im n b = Some (b', xs) ->
  exists orig acts, group b b' xs orig acts im.
Proof using cv_const.
  intros F E. unfold process_core in E. ob E. destruct a as [b1 r].
  destruct im as [i|x y ch|x y op|x|l|x y op|c t f|x m]; cbn [transform rich_vars] in *.
  - injection E0 as <- <-. ob E. ob E. injection E as <- <-. apply guard_some, Nat.eqb_eq in E0. rewrite <- E0.
    do 2 eexists. apply (group_insn K kcmp un_eval gate cv cv_const); [exact E1| |]; intros; assumption.
  - inversion F as [|? ? Ix F1]; subst. inversion F1 as [|? ? Iy F2]; subst.
    ob E0. destruct a as [yv|].
    + destruct (feqb yv 0) eqn:Ey; [discriminate|]. ob E0. destruct a as [b2 yi]. injection E0 as <- <-. ob E. ob E. injection E as <- <-.
      apply guard_some, Nat.eqb_eq in E0. cbn in E0. subst n.
      do 2 eexists. eapply (group_div_const K kcmp un_eval gate cv cv_const); eassumption.
    + destruct ch.
      * ob E0. destruct a as [c1 one]. ob E0. destruct a as [c2 inv]. ob E0. destruct a as [c3 multy]. ob E0. destruct a as [c4 sub1].
        ob E0. injection E0 as <- <-. ob E. ob E. injection E as <- <-. apply guard_some, Nat.eqb_eq in E0. cbn in E0. subst n.
        destruct (inv_push K kcmp gate cv cv_const _ _ _ _ _ _ _ _ _ _ E2 E3 E4 E5) as (T & -> & -> & L).
        do 2 eexists. eapply (group_div_checked K kcmp un_eval gate cv cv_const); eassumption.
      * ob E0. destruct a as [c1 res]. ob E0. destruct a as [c2 multy]. ob E0. destruct a as [c3 subx].
        ob E0. injection E0 as <- <-. ob E. injection E as <- <-.
        do 2 eexists. eapply (group_div_unchecked K kcmp un_eval gate cv cv_const); eassumption.
  - inversion F as [|? ? Ix F1]; subst. inversion F1 as [|? ? Iy F2]; subst.
    ob E0. rename a into c1. ob E0. rename a into c2. ob E0. destruct a as [c3 xpy]. ob E0. destruct a as [c4 xty]. ob E0. destruct a as [c5 res].
    ob E0. injection E0 as <- <-. ob E. injection E as <- <-.
    destruct (group_bool K kcmp un_eval gate cv cv_const _ _ _ _ _ _ _ _ _ _ _ _ _ Ix Iy E1 E2 E3 E4 E5 E6) as (acts & G). eauto.
  - inversion F as [|? ? Ix F1]; subst. ob E0. destruct a as [xv|].
    + injection E0 as <- <-. ob E. ob E. injection E as <- <-. apply guard_some, Nat.eqb_eq in E0. rewrite <- E0.
      do 2 eexists. apply (group_insn K kcmp un_eval gate cv cv_const); [exact E2| |].
      * intros H call vals ms outs _ S St. cbn in St. rewrite cv_const in St. exists xv. split; [eapply const_val; eassumption|].
        rewrite St. destruct (feqb xv 0) eqn:Ez, (feq_dec xv 0) as [D|D]; try reflexivity.
        { apply feqb_eq in Ez. contradiction. }
        { subst xv. assert (feqb 0 (0:K) = true) by (now apply feqb_eq). congruence. }
      * intros H call vals ms outs _ S (z9 & Ea & ->). rewrite (const_val K gate _ _ _ _ _ S E1) in Ea. injection Ea as <-.
        cbn. rewrite cv_const. destruct (feqb xv 0) eqn:Ez, (feq_dec xv 0) as [D|D]; try reflexivity.
        { apply feqb_eq in Ez. contradiction. }
        { subst xv. assert (feqb 0 (0:K) = true) by (now apply feqb_eq). congruence. }
    + ob E0. destruct a as [c1 one]. ob E0. destruct a as [c2 inv]. ob E0. destruct a as [c3 prod]. ob E0. destruct a as [c4 m].
      ob E0. destruct a as [c5 xm]. ob E0. ob E0. injection E0 as <- <-. ob E. injection E as <- <-.
      do 2 eexists. eapply (group_iszero K kcmp un_eval gate cv cv_const); eassumption.
  - injection E0 as <- <-. ob E. ob E. injection E as <- <-. apply guard_some, Nat.eqb_eq in E0. rewrite <- E0.
    do 2 eexists. apply (group_insn K kcmp un_eval gate cv cv_const); [exact E1| |]; intros; assumption.
  - inversion F as [|? ? Ix F1]; subst. inversion F1 as [|? ? Iy F2]; subst. ob E0. ob E0.
    assert (Hint : forall b'' n', b1 = b -> r = TInsn K (NHint (HidBin op) [x; y] 1) -> n' = 1%nat -> push K kcmp (NHint (HidBin op) [x; y] 1) b = Some b'' ->
       exists orig acts, group b b'' (seq (len b) n') orig acts (SUnBin x y op)).
    { intros b'' n' -> _ -> Ep. do 2 eexists. apply (group_insn K kcmp un_eval gate cv cv_const b b'' (SUnBin x y op) (NHint (HidBin op) [x; y] 1)); [exact Ep| |].
      - intros H call vals ms outs _ S St. destruct (scope_val K gate _ _ _ _ S Ix) as (p & Ep1). destruct (scope_val K gate _ _ _ _ S Iy) as (q & Eq1).
        destruct (proj1 (st_hint2 K gate cv H call vals _ _ _ p q outs Ep1 Eq1) St) as (r0 & Eo & Hh). subst outs. exists p, q, r0. auto.
      - intros H call vals ms outs _ S (p & q & r0 & Ep1 & Eq1 & -> & Hh). apply (st_hint2 K gate cv H call vals _ _ _ p q _ Ep1 Eq1). eauto. }
    assert (Fin : forall o, r = TInsn K o -> exists b'', push K kcmp o b1 = Some b'' /\ b'' = b' /\ xs = seq (len b1) n /\ hn_outputs o = n).
    { intros o ->. ob E. ob E. injection E as <- <-. apply guard_some, Nat.eqb_eq in E3. eauto 6. }
    destruct a as [xv|]; [destruct a0 as [yv|]|].
    + ob E0. injection E0 as <- <-. destruct (Fin _ eq_refl) as (b'' & P1 & -> & -> & <-).
      do 2 eexists. apply (group_insn K kcmp un_eval gate cv cv_const); [exact P1| |].
      * intros H call vals ms outs Al S St. cbn in St. rewrite cv_const in St. subst outs. exists xv, yv, a.
        split; [eapply const_val; eassumption|]. split; [eapply const_val; eassumption|]. split; [reflexivity|]. now apply Al.
      * intros H call vals ms outs Cm S (p & q & r0 & Ep1 & Eq1 & -> & Hh).
        rewrite (const_val K gate _ _ _ _ _ S E1) in Ep1. rewrite (const_val K gate _ _ _ _ _ S E2) in Eq1. injection Ep1 as <-. injection Eq1 as <-.
        cbn. rewrite cv_const. f_equal. destruct Cm as (C1 & _). eapply C1; eassumption.
    + injection E0 as <- <-. destruct (Fin _ eq_refl) as (b'' & P1 & -> & -> & <-). eapply Hint; [reflexivity|reflexivity|reflexivity|exact P1].
    + injection E0 as <- <-. destruct (Fin _ eq_refl) as (b'' & P1 & -> & -> & <-). eapply Hint; [reflexivity|reflexivity|reflexivity|exact P1].
  - inversion F as [|? ? Ic F1]; subst. inversion F1 as [|? ? It F2]; subst. inversion F2 as [|? ? If F3]; subst. ob E0. destruct a as [cond|].
    + injection E0 as <- <-. ob E. injection E as <- <-. do 2 eexists. eapply group_select; eassumption.
    + injection E0 as <- <-. ob E. ob E. injection E as <- <-. apply guard_some, Nat.eqb_eq in E0. rewrite <- E0.
      do 2 eexists. apply (group_insn K kcmp un_eval gate cv cv_const); [exact E2| |].
      * intros H call vals ms outs _ S St. destruct (scope_val K gate _ _ _ _ S Ic) as (p & Ep1). destruct (scope_val K gate _ _ _ _ S It) as (q & Eq1).
        destruct (scope_val K gate _ _ _ _ S If) as (s & Es1). cbn in St. unfold at_all in St. cbn [omap] in St. rewrite Ep1, Eq1, Es1 in St. cbn [obind] in St.
        destruct St as (vs & [= <-] & Hh & L). destruct outs as [|r0 [|? ?]]; try discriminate. exists p, q, s, r0. auto 6.
      * intros H call vals ms outs _ S (p & q & s & r0 & Ep1 & Eq1 & Es1 & -> & Hh). cbn. unfold at_all. cbn [omap]. rewrite Ep1, Eq1, Es1. cbn [obind]. eauto.
  - inversion F as [|? ? Ix F1]; subst. ob E0. destruct a as [c1 bits]. ob E0. destruct a as [c2 sum]. ob E0. destruct a as [[c3 sum'] coef'].
    ob E0. destruct a as [c4 diff]. ob E0. injection E0 as <- <-. ob E. injection E as <- <-.
    eapply (group_binary K kcmp un_eval gate cv cv_const); eassumption.
Qed.

(** *** one constraint *)
Record cgroup (b b' : builder) (orig : list (hn_insn K)) (acts : list (nat * status)) (c : src_con) : Prop := {
  cg_trans : trans b b' orig acts;
  cg_sound : forall (H : hints) call vals ms w, Sinv b vals ms -> R H call vals orig w -> asserted acts w -> src_con_holds K vals c;
  cg_complete : forall H call vals ms, computes H -> Sinv b vals ms -> src_con_holds K vals c ->
    exists w, R H call vals orig w /\ asserted acts w;
  cg_marks : no_marks acts }.
Definition con_core (c : src_con) (b : builder) : option builder :=
  let x := snd c in
  let* s :=
    match fst c with
    | CZero => Some (b, x)
    | CBool => bool_cond K kcmp x b
    | CNonZero =>
      let* s := push_const K kcmp 1 b in let '(b, one) := s in
      let* s := push1 K kcmp (NHint div_hint [one; x] 1) b in let '(b, inv) := s in
      let* s := push_mul K kcmp x inv b in let '(b, multy) := s in
      push_sub K kcmp multy one b
    end in
  let '(b, t) := s in
  assert_zero K t b.
Lemma no_marks_one x : no_marks [(x, Asserted)]. Proof. intros J [E|[]]. discriminate. Qed.
Lemma con_core_ok c b b' : in_scope K b (snd c) -> con_core c b = Some b' -> exists orig acts, cgroup b b' orig acts c.
Proof using cv_const.
  destruct c as [[] x]; cbn [fst snd]; intros I E; unfold con_core in E; cbn [fst snd] in E.
  - destruct (trans_assert K gate cv _ _ _ E) as [T _]. do 2 eexists. constructor; [exact T| | |apply no_marks_one].
    + intros H call vals ms w S Hr As. apply runs_nil_iff in Hr. subst w. apply asserted_one in As. exists 0. cbn. auto.
    + intros H call vals ms _ S (v & Ev & V). cbn in Ev, V. subst v. exists vals. split; [now apply runs_nil_iff|now apply asserted_one].
  - ob E. destruct a as [b4 t]. ob E0. destruct a as [b1 one]. ob E0. destruct a as [b2 inv]. ob E0. destruct a as [b3 multy].
    destruct (inv_push K kcmp gate cv cv_const _ _ _ _ _ _ _ _ _ _ E1 E2 E3 E0) as (T & -> & -> & L).
    destruct (trans_assert K gate cv _ _ _ E) as [T2 _]. pose proof (trans_trans _ _ _ _ _ _ _ _ _ _ T T2) as T3. cbn [app] in T3.
    assert (Run : forall (H : hints) call vals w c, len b = length vals -> nth_error vals x = Some c ->
      (R H call vals (inv_insns K x (len b) ++ []) w <-> exists q, H (HidBin UDiv) [1; c] [q] /\ w = vals ++ [1; q; c * q; c * q - 1])).
    { intros H call vals w c Lv Ec. etransitivity; [apply (run_inv K gate cv cv_const); [exact Lv|exact Ec]|].
      split; intros (q & Hh & Hr); exists q; (split; [assumption|]); now apply runs_nil_iff in Hr || apply runs_nil_iff. }
    do 2 eexists. constructor; [exact T3| | |apply no_marks_one].
    + intros H call vals ms w S Hr As. pose proof (eq_sym (s_len _ _ _ _ _ S)) as Lv. destruct (scope_val K gate _ _ _ _ S I) as (c & Ec).
      apply (Run H call vals w c Lv Ec) in Hr as (q & Hh & ->). apply asserted_one in As.
      erewrite look_new in As; [|exact Lv|reflexivity]. injection As as As. apply (proj1 (fsub_eq K _ _)) in As.
      exists c. split; [assumption|]. cbn. intros ->. apply (f1_neq_0 K). transitivity (0 * q); [now symmetry|ring].
    + intros H call vals ms Cm S (c & Ec & Nc). pose proof (eq_sym (s_len _ _ _ _ _ S)) as Lv. cbn in Ec, Nc.
      eexists. split; [apply (Run H call vals _ c Lv Ec); exists (1 / c); split; [now apply Cm|reflexivity]|].
      apply asserted_one. erewrite look_new; [|exact Lv|reflexivity]. f_equal. field. assumption.
  - ob E. destruct a as [b1 t]. destruct (bool_cond_ok K kcmp gate cv cv_const _ _ _ _ E0) as (T & -> & L).
    destruct (trans_assert K gate cv _ _ _ E) as [T2 _]. pose proof (trans_trans _ _ _ _ _ _ _ _ _ _ T T2) as T3. rewrite app_nil_r in T3. cbn [app] in T3.
    do 2 eexists. constructor; [exact T3| | |apply no_marks_one].
    + intros H call vals ms w S Hr As. pose proof (eq_sym (s_len _ _ _ _ _ S)) as Lv. destruct (scope_val K gate _ _ _ _ S I) as (c & Ec).
      apply (run_bool K gate cv cv_const H call vals x _ c w Lv Ec) in Hr. subst w. apply asserted_one in As.
      erewrite look_new in As; [|exact Lv|reflexivity]. injection As as As. exists c. split; [assumption|]. now apply is_bit_iff.
    + intros H call vals ms Cm S (c & Ec & Bc). pose proof (eq_sym (s_len _ _ _ _ _ S)) as Lv. cbn in Ec, Bc.
      eexists. split; [apply (run_bool K gate cv cv_const H call vals x _ c _ Lv Ec); reflexivity|].
      apply asserted_one. erewrite look_new; [|exact Lv|reflexivity]. f_equal. now apply is_bit_iff.
Qed.

(** *** sequences of groups *)
(** [nb]: the marks of the groups are harmless *)
Inductive chain (nb : Prop) : builder -> list (list (hn_insn K) * list (nat * status)) -> builder -> Prop :=
| chain_nil b : chain nb b [] b
| chain_cons b b1 b2 xs o a r : trans b b1 o a -> (nb -> marks_ok b b1 o a) -> chain nb (with_ins K b1 xs) r b2 -> chain nb b ((o, a) :: r) b2.
Definition origs (gs : list (list (hn_insn K) * list (nat * status))) : list (hn_insn K) := concat (map fst gs).
Definition actss (gs : list (list (hn_insn K) * list (nat * status))) : list (nat * status) := concat (map snd gs).
Lemma origs_app a c : origs (a ++ c) = origs a ++ origs c. Proof. unfold origs. now rewrite map_app, concat_app. Qed.
Lemma actss_app a c : actss (a ++ c) = actss a ++ actss c. Proof. unfold actss. now rewrite map_app, concat_app. Qed.

Lemma with_ins_nil b : with_ins K b [] = b.
Proof. destruct b. unfold with_ins. cbn. now rewrite app_nil_r. Qed.
Lemma with_ins_app b x y : with_ins K (with_ins K b x) y = with_ins K b (x ++ y).
Proof. destruct b. unfold with_ins. cbn. now rewrite app_assoc. Qed.
Lemma Sinv_ins_iff b l vals ms : Sinv (with_ins K b l) vals ms <-> Sinv b vals ms.
Proof. split; [|apply Sinv_ins]. intros []. constructor; assumption. Qed.
Lemma trans_ins b b' o a xs : trans b b' o a -> trans (with_ins K b xs) (with_ins K b' xs) o a.
Proof.
  intros [I O C A (n & N & T)]. constructor; cbn [with_ins b_in_to_out b_oexprs b_cons b_insns]; auto.
  - now rewrite I.
  - exists n. split; [assumption|]. intros H call vals ms S. apply Sinv_ins_iff in S. destruct (T H call vals ms S) as [T1 T2].
    split; [assumption|]. intros w Hr. destruct (T2 w Hr) as (ms' & X & S'). exists ms'. split; [assumption|now apply Sinv_ins].
Qed.
Lemma chain_trans nb b gs b' : chain nb b gs b' -> exists xs, trans (with_ins K b xs) b' (origs gs) (actss gs).
Proof.
  induction 1 as [b|b b1 b2 xs o a r T M C (ys & IH)].
  - exists []. rewrite with_ins_nil. apply trans_refl.
  - exists (xs ++ ys). apply (trans_trans _ _ _ _ (with_ins K b1 (xs ++ ys))); [now apply trans_ins|].
    rewrite with_ins_app in IH. exact IH.
Qed.
Lemma chain_app nb a : forall c b b', chain nb b (a ++ c) b' <-> exists m, chain nb b a m /\ chain nb m c b'.
Proof.
  induction a as [|[o x] a IH]; intros c b b'; cbn [app].
  - split; [intros C; exists b; split; [constructor|assumption]|]. intros (m & C1 & C2). inversion C1; subst. assumption.
  - split.
    + intros C. inversion C as [|? ? ? ? ? ? ? T M C']; subst. apply IH in C' as (m & C1 & C2). exists m. split; [econstructor; eassumption|assumption].
    + intros (m & C1 & C2). inversion C1; subst. econstructor; [eassumption|eassumption|]. apply IH. eauto.
Qed.
Lemma chain_oexprs nb b gs b' : chain nb b gs b' -> exists es, b_oexprs K b' = b_oexprs K b ++ es.
Proof. intros C. apply chain_trans in C as (xs & T). destruct (tr_oexprs _ _ _ _ _ _ _ T) as (es & E & _). exists es. exact E. Qed.
Lemma chain_sinv nb b gs b' (H : hints) call vals ms w : chain nb b gs b' -> Sinv b vals ms -> R H call vals (origs gs) w ->
  exists ms', Sinv b' w ms'.
Proof.
  intros C S Hr. apply chain_trans in C as (xs & T). destruct (tr_runs _ _ _ _ _ _ _ T) as (n & _ & Tr).
  destruct (Tr H call vals ms) as [_ T2]; [now apply Sinv_ins|]. destruct (T2 w Hr) as (ms' & _ & S'). eauto.
Qed.

(** the final table of constraints *)
Lemma con_find_set e s l e' : con_find K e' (con_set K e s l) = if expr_eqb e e' then Some s else con_find K e' l.
Proof.
  induction l as [|[k t] l IH]; cbn; [reflexivity|].
  destruct (expr_eqb k e) eqn:E1.
  - apply expr_eqb_eq in E1. subst k. cbn. destruct (expr_eqb e e'); reflexivity.
  - cbn. rewrite IH. destruct (expr_eqb k e') eqn:E2; [|reflexivity].
    apply expr_eqb_eq in E2. subst k. destruct (expr_eqb e e') eqn:E3; [|reflexivity].
    apply expr_eqb_eq in E3. subst e'. assert (expr_eqb e e = true) by (now apply expr_eqb_eq). congruence.
Qed.
Lemma acts_on_from oes acts : forall l e, con_find K e (acts_on K oes acts l) = Some Asserted ->
  con_find K e l = Some Asserted \/ exists x, In (x, Asserted) acts /\ nth_error oes x = Some e.
Proof.
  induction acts as [|[x s] acts IH]; intros l e E; [left; exact E|]. unfold acts_on in E. cbn [fold_left] in E.
  destruct (IH _ _ E) as [G|(y & G1 & G2)]; [|right; exists y; split; [now right|assumption]].
  unfold act in G. cbn [fst snd] in G. destruct (nth_error oes x) as [k|] eqn:Ek; [|now left].
  destruct s.
  - rewrite con_find_set in G. destruct (expr_eqb k e); [discriminate|now left].
  - destruct (con_find K k l) eqn:Ef; [now left|]. rewrite con_find_set in G. destruct (expr_eqb k e) eqn:E2; [|now left].
    apply expr_eqb_eq in E2. subst k. right. exists x. split; [now left|assumption].
Qed.
Definition marked_in (oes : list expr) (acts : list (nat * status)) (e : expr) : Prop := exists J, In (J, Marked) acts /\ nth_error oes J = Some e.
Lemma acts_on_stays oes acts : forall l e, con_find K e l <> None -> 
  (con_find K e l = Some Marked -> False) ->
  con_find K e (acts_on K oes acts l) = Some Asserted \/ marked_in oes acts e.
Proof.
  induction acts as [|[x s] acts IH]; intros l e N Nm.
  - left. cbn. destruct (con_find K e l) as [[]|] eqn:E; try reflexivity; [destruct (Nm eq_refl)|contradiction].
  - unfold acts_on. cbn [fold_left]. fold (acts_on K oes acts (act K oes l (x, s))).
    assert (G : (exists J, In (J, Marked) [(x, s)] /\ nth_error oes J = Some e) \/ con_find K e (act K oes l (x, s)) = con_find K e l).
    { unfold act. cbn [fst snd]. destruct (nth_error oes x) as [k|] eqn:Ek; [|now right]. destruct s.
      - rewrite con_find_set. destruct (expr_eqb k e) eqn:E2; [|now right]. apply expr_eqb_eq in E2. subst k. left. exists x. split; [now left|assumption].
      - right. destruct (con_find K k l) eqn:Ef; [reflexivity|]. rewrite con_find_set. destruct (expr_eqb k e) eqn:E2; [|reflexivity].
        apply expr_eqb_eq in E2. subst k. contradiction. }
    destruct G as [(J & [F|[]] & G2)|G].
    + injection F as <- ->. right. exists x. split; [now left|assumption].
    + destruct (IH (act K oes l (x, s)) e) as [D|(J & D1 & D2)]; [congruence|congruence|now left|]. right. exists J. split; [now right|assumption].
Qed.
Lemma acts_on_to oes acts : forall l e x, (con_find K e l = Some Marked -> False) -> In (x, Asserted) acts -> nth_error oes x = Some e ->
  con_find K e (acts_on K oes acts l) = Some Asserted \/ marked_in oes acts e.
Proof.
  induction acts as [|[y s] acts IH]; intros l e x Nm [] E.
  - injection H as -> ->. unfold acts_on. cbn [fold_left]. fold (acts_on K oes acts (act K oes l (x, Asserted))).
    assert (G : con_find K e (act K oes l (x, Asserted)) = Some Asserted).
    { unfold act. cbn [fst snd]. rewrite E. destruct (con_find K e l) as [[]|] eqn:Ef; [destruct (Nm eq_refl)|assumption|].
      rewrite con_find_set. assert (expr_eqb e e = true) as -> by (now apply expr_eqb_eq). reflexivity. }
    destruct (acts_on_stays oes acts (act K oes l (x, Asserted)) e) as [D|(J & D1 & D2)]; [congruence|congruence|now left|].
    right. exists J. split; [now right|assumption].
  - unfold acts_on. cbn [fold_left]. fold (acts_on K oes acts (act K oes l (y, s))).
    assert (G : (exists J, In (J, Marked) [(y, s)] /\ nth_error oes J = Some e) \/ (con_find K e (act K oes l (y, s)) = Some Marked -> False)).
    { unfold act. cbn [fst snd]. destruct (nth_error oes y) as [k|] eqn:Ek; [|now right]. destruct s.
      - rewrite con_find_set. destruct (expr_eqb k e) eqn:E2; [|now right]. apply expr_eqb_eq in E2. subst k. left. exists y. split; [now left|assumption].
      - right. destruct (con_find K k l) eqn:Ef; [assumption|]. rewrite con_find_set. destruct (expr_eqb k e) eqn:E2; [discriminate|assumption]. }
    destruct G as [(J & [F|[]] & G2)|G].
    + injection F as <- ->. right. exists y. split; [now left|assumption].
    + destruct (IH (act K oes l (y, s)) e x G H E) as [D|(J & D1 & D2)]; [now left|]. right. exists J. split; [now right|assumption].
Qed.

(** where a group sits in a run *)
Lemma chain_at (nb : Prop) b pre o a post b' (H : hints) call vals ms w : nb -> chain nb b (pre ++ (o, a) :: post) b' -> Sinv b vals ms ->
  R H call vals (origs (pre ++ (o, a) :: post)) w ->
  exists m m' u u' msu msw, trans m m' o a /\ marks_ok m m' o a /\ Sinv m u msu /\ R H call u o u' /\ Sinv b' w msw /\
    (exists t, w = u ++ t) /\ (exists t, w = u' ++ t) /\ length u' = len m' /\ length u = len m /\
    (exists es, b_oexprs K b' = b_oexprs K m' ++ es) /\ (exists es, b_oexprs K b' = b_oexprs K m ++ es) /\
    (exists c, chain nb b pre c /\ len c = len m).
Proof.
  intros Nb C S Hr. destruct (chain_sinv _ _ _ _ H call _ _ w C S Hr) as (msw & Sw).
  apply chain_app in C as (m & C1 & C2). rewrite origs_app in Hr. apply runs_app in Hr as (u & U1 & U2).
  destruct (chain_sinv _ _ _ _ H call _ _ u C1 S U1) as (msu & Su).
  change (origs ((o, a) :: post)) with (o ++ origs post) in U2. apply runs_app in U2 as (u' & U2 & U3).
  inversion C2 as [|? m' ? xs ? ? ? T M C3]; subst.
  destruct (tr_runs _ _ _ _ _ _ _ T) as (n & _ & Tr). destruct (Tr H call u msu Su) as [_ Tr2]. destruct (Tr2 u' U2) as (ms' & _ & Su').
  exists m, m', u, u', msu, msw. split; [assumption|]. split; [auto|]. split; [assumption|]. split; [assumption|]. split; [assumption|].
  destruct (runs_prefix K gate cv H call _ _ _ U2) as (t1 & Et1). destruct (runs_prefix K gate cv H call _ _ _ U3) as (t2 & Et2).
  split; [exists (t1 ++ t2); rewrite Et2, Et1, app_assoc; reflexivity|]. split; [exists t2; exact Et2|].
  split; [apply (s_len _ _ _ _ _ Su')|]. split; [apply (s_len _ _ _ _ _ Su)|].
  split; [apply (chain_oexprs _ _ _ _ C3)|]. split; [apply (chain_oexprs _ _ _ _ C2)|]. exists m. auto.
Qed.
Lemma acts_bound nb b gs b' : chain nb b gs b' -> Forall (fun c : nat * status => (fst c < len b')%nat) (actss gs).
Proof. intros C. apply chain_trans in C as (xs & T). exact (tr_acts _ _ _ _ _ _ _ T). Qed.

(** if the emitted constraints hold, everything that was asserted holds *)
Lemma chain_asserted (nb : Prop) b gs b' (H : hints) call vals ms w : nb -> chain nb b gs b' -> b_cons K b = [] -> Sinv b vals ms ->
  R H call vals (origs gs) w ->
  (forall e x, con_find K e (b_cons K b') = Some Asserted -> nth_error (b_oexprs K b') x = Some e -> nth_error w x = Some 0) ->
  asserted (actss gs) w.
Proof.
  intros Nb C Bc S Hr Em.
  assert (Cons : b_cons K b' = acts_on K (b_oexprs K b') (actss gs) []).
  { apply chain_trans in C as (xs & T). rewrite (tr_cons _ _ _ _ _ _ _ T). cbn [with_ins b_cons]. rewrite Bc. reflexivity. }
  cut (forall pre post, gs = pre ++ post -> asserted (actss pre) w).
  { intros G. specialize (G gs [] (eq_sym (app_nil_r _))). exact G. }
  induction pre as [|[o a] pre IH] using rev_ind; intros post Eg; [apply asserted_nil|].
  rewrite <- app_assoc in Eg. cbn [app] in Eg. specialize (IH _ Eg). rewrite actss_app. apply asserted_app. split; [assumption|].
  change (actss [(o, a)]) with (a ++ []). rewrite app_nil_r. intros x Hx.
  assert (C' := C). assert (Hr' := Hr). rewrite Eg in C', Hr'.
  destruct (chain_at nb _ _ _ _ _ _ H call vals ms w Nb C' S Hr') as (m & m' & u & u' & msu & msw & T & M & Su & Ro & Sw & (t & Et) & (t' & Et') & Lu' & Lu & (es' & Oe') & (es & Oe) & _).
  assert (Lx : (x < len m')%nat) by (pose proof (tr_acts _ _ _ _ _ _ _ T) as A; rewrite Forall_forall in A; apply (A _ Hx)).
  assert (Xe : exists e, nth_error (b_oexprs K m') x = Some e).
  { destruct (nth_error (b_oexprs K m') x) eqn:E; [eauto|]. apply nth_error_None in E. lia. }
  destruct Xe as (e & Ex'). assert (Ex : nth_error (b_oexprs K b') x = Some e) by (rewrite Oe'; rewrite nth_error_app1; assumption).
  assert (Ina : In (x, Asserted) (actss gs)).
  { rewrite Eg, actss_app. apply in_or_app. right. change (actss ((o, a) :: post)) with (a ++ actss post). apply in_or_app. now left. }
  destruct (acts_on_to (b_oexprs K b') (actss gs) [] e x) as [D|(J & HJ & EJ)]; [discriminate|assumption|assumption| |].
  { rewrite <- Cons in D. eapply Em; eassumption. }
  (* marked *)
  assert (Same : nth_error w x = nth_error w J) by (rewrite (sinv_lookup K gate _ _ _ _ _ Sw Ex), (sinv_lookup K gate _ _ _ _ _ Sw EJ); reflexivity).
  rewrite Eg, actss_app in HJ. apply in_app_or in HJ as [HJ|HJ].
  - (* by an earlier group *)
    unfold actss in HJ. apply in_concat in HJ as (a1 & Ha1 & HJ). apply in_map_iff in Ha1 as ([o1 a1'] & Ea1 & Hin). cbn in Ea1. subst a1'.
    apply in_split in Hin as (p1 & p2 & Ep). rewrite Ep, <- app_assoc in C', Hr'. cbn [app] in C', Hr'.
    destruct (chain_at nb _ _ _ _ _ _ H call vals ms w Nb C' S Hr') as (m1 & m1' & u1 & u1' & msu1 & msw1 & T1 & M1 & Su1 & Ro1 & _ & _ & (t1 & Et1) & Lu1 & _).
    assert (A1 : asserted a1 w).
    { intros y Hy. apply IH. rewrite Ep. rewrite actss_app. apply in_or_app. right. change (actss ((o1, a1) :: p2)) with (a1 ++ actss p2). apply in_or_app. now left. }
    assert (Fb : Forall (fun c : nat * status => (fst c < length u1')%nat) a1) by (rewrite Lu1; apply (tr_acts _ _ _ _ _ _ _ T1)).
    rewrite Et1 in A1. apply (asserted_prefix K a1 u1' t1 Fb) in A1.
    pose proof (mk_implied _ _ _ _ _ _ _ M1 J H call u1 msu1 u1' HJ Su1 Ro1 A1) as Z. rewrite Same, Et1. now apply look_old.
  - change (actss ((o, a) :: post)) with (a ++ actss post) in HJ. apply in_app_or in HJ as [HJ|HJ].
    + (* by the same group *)
      pose proof (mk_self _ _ _ _ _ _ _ M J x H call u msu u' HJ Hx Su Ro) as Z.
      assert (LJ : (J < len m')%nat) by (pose proof (tr_acts _ _ _ _ _ _ _ T) as A; rewrite Forall_forall in A; apply (A _ HJ)).
      rewrite Et'. apply look_old. apply Z. rewrite Ex'. rewrite Oe', nth_error_app1 in EJ by assumption. congruence.
    + (* by a later group *)
      unfold actss in HJ. apply in_concat in HJ as (a1 & Ha1 & HJ). apply in_map_iff in Ha1 as ([o1 a1'] & Ea1 & Hin). cbn in Ea1. subst a1'.
      apply in_split in Hin as (p1 & p2 & Ep).
      assert (Eg2 : gs = (pre ++ (o, a) :: p1) ++ (o1, a1) :: p2) by (rewrite Eg, Ep, <- app_assoc; reflexivity).
      rewrite Eg2 in C, Hr.
      destruct (chain_at nb _ _ _ _ _ _ H call vals ms w Nb C S Hr) as (m1 & m1' & u1 & u1' & msu1 & msw1 & T1 & M1 & Su1 & _ & _ & (t1 & Et1) & _ & _ & Lu1 & (es1' & Oe1') & (es1 & Oe1) & c & Cc & Lc).
      assert (Lx1 : (x < len m1)%nat).
      { pose proof (acts_bound _ _ _ _ Cc) as A. rewrite Forall_forall in A. rewrite <- Lc. apply (A (x, Asserted)).
        rewrite actss_app. apply in_or_app. right. change (actss ((o, a) :: p1)) with (a ++ actss p1). apply in_or_app. now left. }
      destruct (mk_free _ _ _ _ _ _ _ M1 J call u1 msu1 HJ Su1) as (w1 & Rw1 & Zw1).
      destruct (tr_runs _ _ _ _ _ _ _ T1) as (n1 & _ & Tr1). destruct (Tr1 (All K) call u1 msu1 Su1) as [_ Tr2].
      destruct (Tr2 w1 Rw1) as (ms1 & _ & Sw1).
      destruct (tr_oexprs _ _ _ _ _ _ _ T1) as (es2 & Oe2 & _).
      assert (LJ : (J < len m1')%nat) by (pose proof (tr_acts _ _ _ _ _ _ _ T1) as A; rewrite Forall_forall in A; apply (A _ HJ)).
      assert (EJ1 : nth_error (b_oexprs K m1') J = Some e) by (rewrite Oe1', nth_error_app1 in EJ; assumption).
      assert (Ex1 : nth_error (b_oexprs K m1') x = Some e).
      { rewrite Oe2. rewrite nth_error_app1 by assumption. rewrite Oe1, nth_error_app1 in Ex; assumption. }
      rewrite (sinv_lookup K gate _ _ _ _ _ Sw1 EJ1) in Zw1.
      destruct (runs_prefix K gate cv _ call _ _ _ Rw1) as (t2 & Et2).
      pose proof (sinv_lookup K gate _ _ _ _ _ Sw1 Ex1) as Vx. rewrite Zw1, Et2 in Vx.
      rewrite nth_error_app1 in Vx by lia. rewrite Et1. now apply look_old.
Qed.
End Circ.
