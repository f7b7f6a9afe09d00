From Coq Require Import ZArith List Bool Lia Znumtheory.
From Verif Require Import Spec.Numbers Model.Builder Model.Gadgets Proofs.Builder
  Proofs.RangeCheck Proofs.Gadgets Proofs.Division Proofs.Rescale.
Import ListNotations.
Local Open Scope Z_scope.

Section RA.
Variable p : Z.
Hypothesis Hprime : prime p.
Variable c : nat.
Hypothesis Hc : (0 < c)%nat.
Variable F : nat -> list (list Z).
Notation acc := (accepts p (table_rows c F)).
Notation rn := (run honest_hint (table_rowsb c F)).

Lemma enc_opp a b : enc p a = enc p b -> enc p (- a) = enc p (- b).
Proof.
  unfold enc. intros E. rewrite <- (Z.sub_0_l a), <- (Z.sub_0_l b), Zminus_mod, E, <- Zminus_mod.
  reflexivity.
Qed.

Lemma pw s : pow2 (s + 1) = 2 * pow2 s.
Proof. rewrite pow2_add. change (pow2 1) with 2. ring. Qed.

(* ------------------------------------------------------------------ *)
(** ** Honest runs of the general max and min *)

Section MaxRun.
Variable s : nat.
Hypothesis Hws : width_ok c (s + 1).
Hypothesis Hrs : pow2 (rounded c (s + 1)) <= p.
Hypothesis Hsz : 2 * pow2 (s + 1) <= p.

Lemma mul_b v b : 0 <= v < p -> mul p v (b2z b) = if b then v else 0.
Proof.
  intros Hv. unfold mul. destruct b; cbn [b2z].
  - rewrite Z.mul_1_r. apply Z.mod_small; auto.
  - rewrite Z.mul_0_r. apply Zmod_0_l.
Qed.

Lemma umax_run cur vs : 0 <= cur < p -> Forall (fun v => 0 <= v < p) vs ->
  rn (umax_loop p cur vs) = Some (fold_left Z.max vs cur).
Proof.
  intros Hcur Hvs. revert cur Hcur. induction Hvs as [|v vs Hv Hvs IH]; intros cur Hcur.
  - reflexivity.
  - cbn [umax_loop fold_left]. unfold unconstrained_greater, unconstrained_lesser_eq,
      unconstrained_mul, unconstrained_add.
    rewrite run_bind, (run_hint1 c F HGreater _ (b2z (cur <? v))) by reflexivity.
    rewrite run_bind, (run_hint1 c F HLesserEq _ (b2z (v <=? cur))) by reflexivity.
    rewrite run_bind, (run_hint1 c F HIdentity _ (mul p v (b2z (cur <? v)))) by reflexivity.
    rewrite run_bind, (run_hint1 c F HIdentity _ (mul p cur (b2z (v <=? cur)))) by reflexivity.
    rewrite run_bind, (run_hint1 c F HIdentity _ (Z.max cur v)).
    + apply IH. lia.
    + cbn. rewrite !mul_b by auto. do 2 f_equal. unfold add.
      destruct (Z.ltb_spec cur v), (Z.leb_spec v cur); try lia; rewrite Z.mod_small; lia.
Qed.

Lemma umin_run cur vs : 0 <= cur < p -> Forall (fun v => 0 <= v < p) vs ->
  rn (umin_loop p cur vs) = Some (fold_left Z.min vs cur).
Proof.
  intros Hcur Hvs. revert cur Hcur. induction Hvs as [|v vs Hv Hvs IH]; intros cur Hcur.
  - reflexivity.
  - cbn [umin_loop fold_left]. unfold unconstrained_lesser, unconstrained_greater_eq,
      unconstrained_mul, unconstrained_add.
    rewrite run_bind, (run_hint1 c F HLesser _ (b2z (v <? cur))) by reflexivity.
    rewrite run_bind, (run_hint1 c F HGreaterEq _ (b2z (cur <=? v))) by reflexivity.
    rewrite run_bind, (run_hint1 c F HIdentity _ (mul p v (b2z (v <? cur)))) by reflexivity.
    rewrite run_bind, (run_hint1 c F HIdentity _ (mul p cur (b2z (cur <=? v)))) by reflexivity.
    rewrite run_bind, (run_hint1 c F HIdentity _ (Z.min cur v)).
    + apply IH. lia.
    + cbn. rewrite !mul_b by auto. do 2 f_equal. unfold add.
      destruct (Z.ltb_spec v cur), (Z.leb_spec cur v); try lia; rewrite Z.mod_small; lia.
Qed.

Lemma fold_max_spec vs x : is_max (x :: vs) (fold_left Z.max vs x).
Proof.
  revert x. induction vs as [|v vs IH]; intros x; cbn [fold_left].
  - split; [left; auto|]. intros y [<-|[]]. lia.
  - destruct (IH (Z.max x v)) as (H1 & H2). split.
    + destruct H1 as [H1|H1].
      * destruct (Z.max_spec x v) as [[_ E]|[_ E]]; rewrite E in *; cbn; auto.
      * cbn; auto.
    + intros y [<-|[<-|Hy]].
      * specialize (H2 (Z.max x v) (or_introl eq_refl)). lia.
      * specialize (H2 (Z.max x v) (or_introl eq_refl)). lia.
      * apply H2. right; auto.
Qed.

Lemma fold_min_spec vs x : is_min (x :: vs) (fold_left Z.min vs x).
Proof.
  revert x. induction vs as [|v vs IH]; intros x; cbn [fold_left].
  - split; [left; auto|]. intros y [<-|[]]. lia.
  - destruct (IH (Z.min x v)) as (H1 & H2). split.
    + destruct H1 as [H1|H1].
      * destruct (Z.min_spec x v) as [[_ E]|[_ E]]; rewrite E in *; cbn; auto.
      * cbn; auto.
    + intros y [<-|[<-|Hy]].
      * specialize (H2 (Z.min x v) (or_introl eq_refl)). lia.
      * specialize (H2 (Z.min x v) (or_introl eq_refl)). lia.
      * apply H2. right; auto.
Qed.

Lemma fold_max_map o vs x :
  fold_left Z.max (map (fun v => v + o) vs) (x + o) = fold_left Z.max vs x + o.
Proof.
  revert x. induction vs as [|v vs IH]; intros x; cbn; auto.
  rewrite <- IH. f_equal. lia.
Qed.
Lemma fold_min_map o vs x :
  fold_left Z.min (map (fun v => v + o) vs) (x + o) = fold_left Z.min vs x + o.
Proof.
  revert x. induction vs as [|v vs IH]; intros x; cbn; auto.
  rewrite <- IH. f_equal. lia.
Qed.

Lemma delta_run (d : Z -> Z) prod vs :
  Forall (fun x => rn (range_check p c (d x) (s + 1)) = Some tt) vs ->
  rn (delta_loop p c d (s + 1) prod vs) = Some (fold_left (fun q x => mul p q (d x)) vs prod).
Proof.
  intros H. revert prod. induction H as [|x vs Hx H IH]; intros prod; [reflexivity|].
  cbn [delta_loop fold_left]. rewrite run_bind, Hx. apply IH.
Qed.

Lemma offset_map vs : Forall (signed_fits s) vs ->
  map (fun v => add p v (const p (pow2 s))) (map (enc p) vs) = map (fun v => v + pow2 s) vs.
Proof.
  intros H. rewrite map_map. apply map_ext_in. intros v Hv.
  rewrite Forall_forall in H. specialize (H v Hv). unfold signed_fits in H.
  change (2 ^ Z.of_nat s) with (pow2 s) in H. pose proof (pw s).
  change (const p (pow2 s)) with (enc p (pow2 s)). rewrite add_enc. apply enc_id. lia.
Qed.

Theorem max_run vs : vs <> [] -> Forall (signed_fits s) vs ->
  exists z, is_max vs z /\
    rn (constrained_max p c s (const p (pow2 s)) (map (enc p) vs)) = Some (enc p z).
Proof.
  intros Hne Hvs.
  destruct vs as [|x vs]; [congruence|]. clear Hne.
  exists (fold_left Z.max vs x). split; [apply fold_max_spec|].
  destruct (fold_max_spec vs x) as (Hin & Hmax). set (m := fold_left Z.max vs x) in *.
  assert (Hall := proj1 (Forall_forall _ _) Hvs).
  assert (G : rn (bind (unconstrained_max p (map (fun v => add p v (const p (pow2 s))) (map (enc p) (x :: vs))))
     (fun mo => let m := sub p mo (const p (pow2 s)) in
         bind (delta_loop p c (fun x => sub p m x) (s + 1) (const p 1) (map (enc p) (x :: vs)))
           (fun prod => bind (assert_zero prod) (fun _ => Ret m)))) = Some (enc p m)).
  { rewrite offset_map by auto. cbn [map unconstrained_max]. rewrite run_bind.
    assert (R : forall v, In v (x :: vs) -> 0 <= v + pow2 s < p).
    { intros v Hv. specialize (Hall v Hv). unfold signed_fits in Hall.
      change (2 ^ Z.of_nat s) with (pow2 s) in Hall. pose proof (pw s). lia. }
    rewrite umax_run.
    - cbv zeta. rewrite fold_max_map. fold m. change (const p (pow2 s)) with (enc p (pow2 s)).
      rewrite <- (enc_id p (m + pow2 s)) by (apply R; auto). rewrite sub_enc.
      replace (m + pow2 s - pow2 s) with m by ring.
      rewrite run_bind, (delta_run _ _ (enc p x :: map (enc p) vs)).
      + rewrite run_bind. unfold assert_zero. cbn [run].
        rewrite prod_zero_conv; [reflexivity|].
        left. exists (enc p m). split; [apply (in_map (enc p) (x :: vs)); auto|].
        unfold sub. rewrite Z.sub_diag. apply Zmod_0_l.
      + change (enc p x :: map (enc p) vs) with (map (enc p) (x :: vs)).
        rewrite Forall_forall. intros u Hu.
        apply in_map_iff in Hu as (v & <- & Hv). rewrite sub_enc.
        pose proof (fits_diff s m v (Hall _ Hin) (Hall _ Hv)). specialize (Hmax v Hv).
        apply run_range_check; auto. lia.
    - apply R. left; auto.
    - rewrite Forall_forall. intros u Hu. apply in_map_iff in Hu as (v & <- & Hv).
      apply R. right; auto. }
  destruct vs as [|a [|b vs]].
  - exact G.
  - cbn [map constrained_max]. inversion Hvs as [|? ? Hx H1]; subst.
    inversion H1 as [|? ? Ha H2]; subst. rewrite max2_run; auto.
  - exact G.
Qed.

Theorem min_run vs : vs <> [] -> Forall (signed_fits s) vs ->
  exists z, is_min vs z /\
    rn (constrained_min p c s (const p (pow2 s)) (map (enc p) vs)) = Some (enc p z).
Proof.
  intros Hne Hvs.
  destruct vs as [|x vs]; [congruence|]. clear Hne.
  exists (fold_left Z.min vs x). split; [apply fold_min_spec|].
  destruct (fold_min_spec vs x) as (Hin & Hmin). set (m := fold_left Z.min vs x) in *.
  assert (Hall := proj1 (Forall_forall _ _) Hvs).
  assert (G : rn (bind (unconstrained_min p (map (fun v => add p v (const p (pow2 s))) (map (enc p) (x :: vs))))
     (fun mo => let m := sub p mo (const p (pow2 s)) in
         bind (delta_loop p c (fun x => sub p x m) (s + 1) (const p 1) (map (enc p) (x :: vs)))
           (fun prod => bind (assert_zero prod) (fun _ => Ret m)))) = Some (enc p m)).
  { rewrite offset_map by auto. cbn [map unconstrained_min]. rewrite run_bind.
    assert (R : forall v, In v (x :: vs) -> 0 <= v + pow2 s < p).
    { intros v Hv. specialize (Hall v Hv). unfold signed_fits in Hall.
      change (2 ^ Z.of_nat s) with (pow2 s) in Hall. pose proof (pw s). lia. }
    rewrite umin_run.
    - cbv zeta. rewrite fold_min_map. fold m. change (const p (pow2 s)) with (enc p (pow2 s)).
      rewrite <- (enc_id p (m + pow2 s)) by (apply R; auto). rewrite sub_enc.
      replace (m + pow2 s - pow2 s) with m by ring.
      rewrite run_bind, (delta_run _ _ (enc p x :: map (enc p) vs)).
      + rewrite run_bind. unfold assert_zero. cbn [run].
        rewrite prod_zero_conv; [reflexivity|].
        left. exists (enc p m). split; [apply (in_map (enc p) (x :: vs)); auto|].
        unfold sub. rewrite Z.sub_diag. apply Zmod_0_l.
      + change (enc p x :: map (enc p) vs) with (map (enc p) (x :: vs)).
        rewrite Forall_forall. intros u Hu.
        apply in_map_iff in Hu as (v & <- & Hv). rewrite sub_enc.
        pose proof (fits_diff s v m (Hall _ Hv) (Hall _ Hin)). specialize (Hmin v Hv).
        apply run_range_check; auto. lia.
    - apply R. left; auto.
    - rewrite Forall_forall. intros u Hu. apply in_map_iff in Hu as (v & <- & Hv).
      apply R. right; auto. }
  destruct vs as [|a [|b vs]].
  - exact G.
  - cbn [map constrained_min]. inversion Hvs as [|? ? Hx H1]; subst.
    inversion H1 as [|? ? Ha H2]; subst. rewrite min2_run; auto.
  - exact G.
Qed.

Theorem clip_run x lo hi : signed_fits s x ->
  (forall a, lo = Some a -> signed_fits s a) -> (forall b, hi = Some b -> signed_fits s b) ->
  rn (constrained_clip p c s (const p (pow2 s)) (enc p x)
        (option_map (enc p) lo) (option_map (enc p) hi)) = Some (enc p (clip lo hi x)).
Proof.
  intros Hx Hlo Hhi. unfold constrained_clip, clip. rewrite run_bind.
  assert (Hy : signed_fits s (match lo with Some a => Z.max x a | None => x end)).
  { destruct lo as [a|]; auto. specialize (Hlo a eq_refl). unfold signed_fits in *. lia. }
  assert (E : rn (match option_map (enc p) lo with
      | Some a => constrained_max_2 p c s (const p (pow2 s)) (enc p x) a | None => Ret (enc p x) end)
      = Some (enc p (match lo with Some a => Z.max x a | None => x end))).
  { destruct lo as [a|]; cbn [option_map]; [apply max2_run; auto | reflexivity]. }
  rewrite E. destruct hi as [b|]; cbn [option_map]; [apply min2_run; auto | reflexivity].
Qed.

End MaxRun.

(* ------------------------------------------------------------------ *)
(** ** Rescaling *)

Section Resc.
Variables k s : nat.
Hypothesis Hk32 : (k < 32)%nat.
Hypothesis Hs64 : (s < 64)%nat.
Hypothesis Hwk : width_ok c k.
Hypothesis Hws : width_ok c (s + 1).
Hypothesis Hbig : 2 * (pow2 k * pow2 (rounded c (s + 1)) + pow2 (rounded c k)) <= p.

Definition ctx : rescale_ctx :=
  {| rc_kappa := k; rc_s := s; rc_alpha := const p (pow2 k);
     rc_shift := const p (pow2 s); rc_scaled := const p (pow2 k * pow2 s) |}.

Lemma ctx_ok : rescaling_context p k s = Ret ctx.
Proof.
  unfold rescaling_context. destruct (Nat.leb_spec 32 k); [lia|].
  destruct (Nat.leb_spec 64 s); [lia|]. reflexivity.
Qed.

Lemma shift_ok : shift_ctx p s = Ret (const p (pow2 s)).
Proof. unfold shift_ctx. destruct (Nat.leb_spec 64 s); [lia|]. reflexivity. Qed.

Lemma sizes : pow2 (rounded c k) <= p /\ pow2 (rounded c (s + 1)) <= p /\ 2 * pow2 (s + 1) <= p /\
   2 * pow2 k * pow2 (s+1) <= p /\ pow2 k * pow2 (rounded c (s + 1)) + pow2 (rounded c k) <= p.
Proof.
  pose proof (pow2_pos k). pose proof (pow2_pos (rounded c k)).
  pose proof (pow2_pos (rounded c (s + 1))).
  pose proof (pow2_le _ _ (rounded_ge c (s + 1))). pose proof (pow2_pos (s + 1)). nia.
Qed.

Definition rescaled (apply_relu : bool) (x : Z) : Z :=
  if apply_relu then relu (x / pow2 k) else x / pow2 k.

Definition in_range (x : Z) : Prop := - (pow2 k * pow2 s) <= x < pow2 k * pow2 s.

Theorem rescale_run r x : in_range x ->
  rn (rescale p c ctx (enc p x) r) = Some (enc p (rescaled r x)).
Proof.
  intros Hx. destruct sizes as (Z1 & Z2 & Z3 & Z4 & Z5). unfold rescale. rewrite run_bind.
  pose proof (div_pow2_run p Hprime c Hc F k s Hwk Hws Z1 Z2 Z5 x (negb r) Hx) as E.
  unfold dp in E. cbn [rc_alpha rc_scaled rc_kappa rc_s rc_shift ctx].
  rewrite E. destruct r; cbn [rescaled].
  - rewrite shift_ok. cbn [bind]. apply relu_run; auto.
    unfold signed_fits. change (2 ^ Z.of_nat s) with (pow2 s). pose proof (pow2_pos k).
    unfold in_range in Hx.
    split; [apply Z.div_le_lower_bound; lia | apply Z.div_lt_upper_bound; lia].
  - reflexivity.
Qed.

Hypothesis Hdk : (k mod c = 0)%nat.
Hypothesis Hds : ((s + 1) mod c = 0)%nat.

Theorem rescale_exact r x y : in_range x ->
  acc (rescale p c ctx (enc p x) r) y <-> y = enc p (rescaled r x).
Proof.
  intros Hx. destruct sizes as (Z1 & Z2 & Z3 & Z4 & Z5).
  pose proof (pow2_pos k) as Pk. pose proof (pow2_pos s) as Ps. pose proof (pw s) as Es.
  unfold rescale. cbn [rc_alpha rc_scaled rc_kappa rc_s rc_shift ctx]. destruct r; cbn [negb rescaled].
  - rewrite shift_ok. cbn [bind]. split.
    + intros H. apply accepts_bind in H as (q0 & Hq0 & Hr).
      unfold div_pow2_inner, unconstrained_int_div, unconstrained_mod in Hq0. cbv zeta in Hq0.
      change (const p) with (enc p) in Hq0. rewrite !add_enc in Hq0.
      apply accepts_bind in Hq0 as (q & Hq & Hq0). apply accepts_hint1 in Hq.
      apply accepts_bind in Hq0 as (r & Hr0 & Hq0). apply accepts_hint1 in Hr0.
      apply accepts_bind in Hq0 as (u & He & Hq0). apply accepts_assert_eq in He. destruct u.
      apply accepts_bind in Hq0 as (u & Hrr & Hq0). destruct u.
      apply accepts_bind in Hq0 as (u & _ & Hq0). destruct u. apply accepts_ret in Hq0.
      rewrite <- (enc_id p r Hr0) in Hrr. apply rc_enc in Hrr; auto.
      destruct Hrr as (r' & Hr' & Er). rewrite (enc_id p r Hr0) in Er.
      rewrite (rounded_exact c k Hdk), Z.sub_diag in Hr'.
      (* the quotient, as a signed integer bounded by the ReLU's own check *)
      assert (Hz : exists z, - pow2 (s + 1) < z < pow2 (s + 1) /\ q0 = enc p z).
      { assert (Eq0 : q0 = enc p q0).
        { symmetry. apply enc_id. rewrite <- Hq0. apply Z.mod_pos_bound, pp; auto. }
        rewrite Eq0 in Hr. apply relu_acc in Hr; auto.
        destruct Hr as [[Hr _]|[Hr _]]; apply rc_enc in Hr; auto;
          destruct Hr as (z & Hz & Ez); rewrite (rounded_exact c _ Hds), Z.sub_diag in Hz.
        - exists (- z). split; [lia|]. rewrite Eq0. unfold enc in *.
          rewrite <- (Z.opp_involutive q0). apply (enc_opp (- q0) z Ez).
        - exists z. split; [lia|]. rewrite Eq0. exact Ez. }
      destruct Hz as (z & Hz & Ez).
      assert (Eq : q = enc p (z + pow2 s)).
      { rewrite Ez in Hq0. rewrite <- (enc_id p q Hq), sub_enc in Hq0.
        rewrite <- (enc_id p q Hq). unfold enc in *.
        replace q with ((q - pow2 s) + pow2 s) by ring.
        rewrite Zplus_mod, Hq0, <- Zplus_mod. reflexivity. }
      rewrite Eq, Er, mul_enc, add_enc in He.
      apply enc_inj in He; [|apply pp; auto|].
      2:{ unfold in_range in Hx. nia. }
      assert (z = x / pow2 k) as ->.
      { apply (div_sandwich x (pow2 k) z r'); auto. lia. }
      rewrite Ez in Hr. apply relu_exact in Hr; auto.
    + intros ->. apply accepts_bind. exists (enc p (x / pow2 k)). split.
      * pose proof (Z.div_mod x (pow2 k) ltac:(lia)) as D.
        pose proof (Z.mod_pos_bound x (pow2 k) Pk) as M.
        unfold div_pow2_inner, unconstrained_int_div, unconstrained_mod. cbv zeta.
        change (const p) with (enc p). rewrite !add_enc.
        apply accepts_bind. exists (enc p (x / pow2 k + pow2 s)).
        split; [apply accepts_hint1, enc_range, pp; auto|].
        apply accepts_bind. exists (enc p (x mod pow2 k)).
        split; [apply accepts_hint1, enc_range, pp; auto|].
        apply accepts_bind. exists tt. split.
        { apply accepts_assert_eq. rewrite mul_enc, add_enc. f_equal. lia. }
        apply accepts_bind. exists tt. split.
        { apply rc_enc; auto. exists (x mod pow2 k). split; auto.
          rewrite (rounded_exact c k Hdk). lia. }
        apply accepts_bind. exists tt. split; [reflexivity|].
        apply accepts_ret. rewrite sub_enc. f_equal. ring.
      * apply relu_exact; auto. unfold in_range in Hx.
        assert (- pow2 s <= x / pow2 k < pow2 s).
        { split; [apply Z.div_le_lower_bound; lia | apply Z.div_lt_upper_bound; lia]. }
        lia.
  - pose proof (div_pow2_exact p Hprime c Hc F k s Hwk Hws Z1 Z2 Z5 x y Hdk Hx) as E.
    unfold dp in E. rewrite accepts_bind. split.
    + intros (v & Hv & H). apply E. apply accepts_ret in H. subst v. exact Hv.
    + intros Hy. exists y. split; [apply E; exact Hy | reflexivity].
Qed.

Theorem rescale_array_exact r xs ys : Forall in_range xs ->
  acc (rescale_array p c (map (enc p) xs) k s r) ys <-> ys = map (enc p) (map (rescaled r) xs).
Proof.
  intros Hxs. unfold rescale_array. rewrite ctx_ok. cbn [bind]. rewrite accepts_mapM.
  split.
  - revert ys. induction Hxs as [|x xs Hx Hxs IH]; intros ys H; cbn [map] in *.
    + inversion H; reflexivity.
    + inversion H; subst. f_equal; [apply rescale_exact in H2; auto | apply IH; auto].
  - intros ->. induction Hxs as [|x xs Hx Hxs IH]; cbn [map]; constructor; auto.
    apply rescale_exact; auto.
Qed.

End Resc.

Theorem rescale_array_run k s r xs : (k < 32)%nat -> (s < 64)%nat ->
  width_ok c k -> width_ok c (s + 1) ->
  2 * (pow2 k * pow2 (rounded c (s + 1)) + pow2 (rounded c k)) <= p ->
  Forall (in_range k s) xs ->
  rn (rescale_array p c (map (enc p) xs) k s r) = Some (map (enc p) (map (rescaled k r) xs)).
Proof.
  intros Hk Hs Hwk Hws Hbig Hxs. unfold rescale_array. rewrite ctx_ok by auto. cbn [bind].
  induction Hxs as [|x xs Hx Hxs IH]; [reflexivity|]. cbn [map mapM].
  rewrite run_bind, rescale_run by auto. rewrite run_bind, IH. reflexivity.
Qed.

End RA.
