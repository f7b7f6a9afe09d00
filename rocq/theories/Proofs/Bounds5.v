From Coq Require Import List Arith Bool Reals String ZArith Lia Lra.
From Verif Require Import Spec.Shapes Spec.Tensors Spec.RealOps Model.Bounds Proofs.Bounds Proofs.Bounds2 Proofs.Bounds3 Proofs.Bounds4.
Import ListNotations.
Local Open Scope nat_scope.
Local Open Scope R_scope.

Definition checked (l : layer) : bool := needs_rescale (kind (body l)) || is_range_check_op (kind (body l)).
Definition inv (env : valuation) (known : list string) (bounds : list (string * R)) : Prop :=
  (forall s, In s known -> exists b, map_get s bounds = Some b) /\
  (forall s b, map_get s bounds = Some b -> 0 <= b /\ forall t, env s = Some t -> within b (flat t)).

Section Step.
Variables (alpha : R) (shapes : string -> option (list nat)) (env : valuation).
Hypothesis Ha : 1 <= alpha.
Hypothesis Hwf : forall s t, env s = Some t -> well_formed t.

Lemma step known bounds l b : inv env known bounds ->
  Forall (fun s => In s known \/ In s (map fst (weights l)) \/ env s = None) (inputs (body l)) ->
  Forall (fun c => env (fst c) = Some (snd c)) (weights l) ->
  (forall j s t, nth_error (outputs (body l)) j = Some s -> env s = Some t -> Forall (entry env (body l) j) (flat t)) ->
  analysable alpha shapes env (body l) (weights l) ->
  layer_bound shapes l bounds alpha = Some b ->
  0 <= b /\ inv env (known ++ outputs (body l)) (output_bounds l b ++ bounds) /\
  each_output env (body l) (fun j v => (kind (body l) = TopK -> j = 0%nat) -> Rabs v <= b).
Proof.
  intros [I1 I2] Hin Hc He A H.
  assert (Hw : forall s w, map_get s (weights l) = Some w -> env s = Some w).
  { intros s w E. apply map_get_in in E. exact (proj1 (Forall_forall _ _) Hc _ E). }
  assert (Hop : forall i, 0 <= input_bound bounds l i /\ within (input_bound bounds l i) (values env (body l) i)).
  { intros i. unfold input_bound, values, arg. destruct (nth_error (inputs (body l)) i) as [s|] eqn:Ei; [|split; [lra|constructor]].
    destruct (map_get s bounds) as [bb|] eqn:Eb.
    - destruct (I2 s bb Eb) as [P Q]. split; [exact P|]. destruct (env s) as [t|] eqn:Et; [apply Q; reflexivity|constructor].
    - destruct (map_get s (weights l)) as [w|] eqn:Ew.
      + rewrite (Hw s w Ew). destruct (flat w) as [|x r] eqn:Ef; [split; [lra|constructor]|]. rewrite <- Ef. split; [apply max_abs_nonneg|apply max_abs_within].
      + split; [lra|]. apply nth_error_In in Ei. destruct (proj1 (Forall_forall _ _) Hin s Ei) as [G|[G|G]].
        * destruct (I1 s G). congruence.
        * destruct (map_get_some _ _ G). congruence.
        * rewrite G. constructor. }
  assert (Hknown : forall i s t, nth_error (inputs (body l)) i = Some s -> env s = Some t -> map_get s (weights l) = None -> exists b, map_get s bounds = Some b).
  { intros i s t Ei Et Ew. apply nth_error_In in Ei. destruct (proj1 (Forall_forall _ _) Hin s Ei) as [G|[G|G]]; [auto| |congruence].
    destruct (map_get_some _ _ G). congruence. }
  assert (Hb : 0 <= b).
  { eapply (layer_nonneg alpha shapes env l bounds); [exact (fun i => proj1 (Hop i))|exact Hknown|intros s b0 E; apply (I2 s b0 E)|exact H]. }
  assert (G : each_output env (body l) (fun j v => (kind (body l) = TopK -> j = 0%nat) -> Rabs v <= b)).
  { intros j s t Es Et. apply Forall_forall. intros v Hv Hj.
    eapply (entry_bounded alpha shapes env l bounds); try eassumption.
    - exact (fun i => proj1 (Hop i)).
    - exact (fun i => proj2 (Hop i)).
    - intros K. unfold analysable in A. rewrite K in A. specialize (He j s t Es Et). apply (proj1 (Forall_forall _ _) He) in Hv.
      unfold entry in Hv. rewrite K in Hv. destruct Hv as (xs & x & y & E1 & E2 & _). unfold arg in E1.
      destruct (inputs (body l)) as [|i0 ir]; [discriminate|]. destruct (outputs (body l)) as [|o r]; [discriminate|].
      destruct A as (-> & _). destruct j as [|[|]]; cbn in Es; congruence.
    - exact (proj1 (Forall_forall _ _) (He j s t Es Et) v Hv). }
  split; [exact Hb|]. split; [|exact G].
  assert (Hnew : forall s b0, In (s, b0) (output_bounds l b) -> 0 <= b0 /\ forall t, env s = Some t -> within b0 (flat t)).
  { intros s b0 Hs. unfold output_bounds in Hs.
    assert (NT : forall j, nth_error (outputs (body l)) j = Some s -> (kind (body l) = TopK -> j = 0%nat) -> b0 = b -> 0 <= b0 /\ forall t, env s = Some t -> within b0 (flat t)).
    { intros j Ej Hj ->. split; [exact Hb|]. intros t Et. eapply Forall_impl; [|exact (G j s t Ej Et)]. cbn. auto. }
    destruct (kind (body l)) eqn:K.
    all: try (apply in_rev, in_map_iff in Hs; destruct Hs as (o & [= -> ->] & Ho); apply In_nth_error in Ho; destruct Ho as [j Ej]; eapply (NT j Ej); [congruence|reflexivity]).
    unfold analysable in A. rewrite K in A. destruct A as [A _].
    destruct (outputs (body l)) as [|o0 [|o1 r]] eqn:Eo; [destruct Hs|..].
    - destruct Hs as [[= <- <-]|[]]. apply (NT 0%nat); auto.
    - destruct Hs as [[= <- <-]|[[= <- <-]|[]]]; [|apply (NT 0%nat); auto].
      split; [lra|]. intros t Et. eapply Forall_impl; [|apply (A 1%nat o1 t); [rewrite Eo; reflexivity|exact Et]]. cbn. intros v Hv. apply Hv. lia. }
  split.
  - intros s Hs. rewrite map_get_app. destruct (map_get s (output_bounds l b)) as [x|] eqn:E; [eauto|].
    apply in_app_or in Hs. destruct Hs as [Hs|Hs]; [apply I1, Hs|exfalso].
    assert (Hd : In s (map fst (output_bounds l b))).
    { unfold output_bounds. destruct (kind (body l)) eqn:K.
      all: try (rewrite map_rev, map_map; cbn; rewrite map_id; apply in_rev in Hs; exact Hs).
      unfold analysable in A. rewrite K in A. destruct A as [_ A].
      destruct (outputs (body l)) as [|o0 [|o1 [|]]]; cbn in A, Hs |- *; tauto || lia. }
    destruct (map_get_some _ _ Hd). congruence.
  - intros s b0 E. rewrite map_get_app in E. destruct (map_get s (output_bounds l b)) as [x|] eqn:Ex; [|apply (I2 s b0 E)].
    injection E as <-. apply Hnew. apply map_get_in, Ex.
Qed.
Lemma loop layers : forall known bounds nb bs nb',
  inv env known bounds -> ordered env known (map (fun l => (body l, weights l)) layers) ->
  (forall n j s t, In n (map body layers) -> nth_error (outputs n) j = Some s -> env s = Some t -> Forall (entry env n j) (flat t)) ->
  Forall (fun l => analysable alpha shapes env (body l) (weights l)) layers ->
  bounds_loop alpha shapes layers bounds nb = Some (bs, nb') ->
  inv env (known ++ flat_map (fun l => outputs (body l)) layers) bs /\
  (forall s, ~ In s (map name layers) -> map_get s nb' = map_get s nb) /\
  (NoDup (map name layers) -> forall l, In l layers -> checked l = true ->
    exists k, map_get (name l) nb' = Some k /\ bits_hold alpha env (body l) k).
Proof.
  induction layers as [|l layers IH]; intros known bounds nb bs nb' I O He A H; cbn in H.
  - injection H as <- <-. rewrite app_nil_r. split; [exact I|]. split; [auto|intros _ l []].
  - destruct (layer_bound shapes l bounds alpha) as [b|] eqn:Eb; [|discriminate].
    cbn in O. destruct O as (O1 & O2 & O3). inversion A as [|? ? A1 A2]; subst.
    destruct (step known bounds l b I O1 O2 (fun j s t => He (body l) j s t (or_introl eq_refl)) A1 Eb) as (Hb & I' & G).
    cbn [flat_map]. rewrite app_assoc.
    assert (He' : forall n j s t, In n (map body layers) -> nth_error (outputs n) j = Some s -> env s = Some t -> Forall (entry env n j) (flat t)).
    { intros n j s t Hn. apply He. right. exact Hn. }
    assert (Gb : bits_hold alpha env (body l) (compute_n_bits alpha b)).
    { intros j s t Es Et. eapply Forall_impl; [|exact (G j s t Es Et)]. cbn. intros v Hv Hj.
      eapply Rle_trans; [|apply n_bits_hold]. rewrite !Rabs_mult. apply Rmult_le_compat_l; [apply Rabs_pos|].
      rewrite (Rabs_right b) by lra. auto. }
    destruct (needs_rescale (kind (body l)) || is_range_check_op (kind (body l))) eqn:Ec.
    + destruct (Rlt_dec _ _); [discriminate|].
      destruct (IH _ _ _ _ _ I' O3 He' A2 H) as (J1 & J2 & J3). split; [exact J1|]. split.
      * intros s Hs. cbn in Hs. rewrite J2 by tauto. unfold map_get. cbn. destruct (String.eqb_spec (name l) s) as [E|]; [tauto|reflexivity].
      * intros ND. inversion ND; subst. intros l' [<-|Hl'] Hc; [|apply J3; assumption].
        exists (compute_n_bits alpha b). split; [|exact Gb]. rewrite J2 by assumption. unfold map_get. cbn. rewrite String.eqb_refl. reflexivity.
    + destruct (IH _ _ _ _ _ I' O3 He' A2 H) as (J1 & J2 & J3). split; [exact J1|]. split.
      * intros s Hs. cbn in Hs. apply J2. tauto.
      * intros ND. inversion ND; subst. intros l' [<-|Hl'] Hc; [unfold checked in Hc; congruence|apply J3; assumption].
Qed.
End Step.

Lemma bounds_hold alpha shapes input_names layers env bs nb : 1 <= alpha ->
  runs input_names (map body layers) env ->
  ordered env input_names (map (fun l => (body l, weights l)) layers) ->
  Forall (fun l => analysable alpha shapes env (body l) (weights l)) layers ->
  compute_bounds alpha shapes input_names layers = Some (bs, nb) ->
  (forall l j s t, In l layers -> nth_error (outputs (body l)) j = Some s -> env s = Some t ->
    exists b, map_get s bs = Some b /\ Forall (fun v => Rabs v <= b) (flat t)) /\
  (NoDup (map name layers) -> forall l, In l layers -> needs_rescale (kind (body l)) || is_range_check_op (kind (body l)) = true ->
    exists k, map_get (name l) nb = Some k /\ bits_hold alpha env (body l) k).
Proof.
  intros Ha (R1 & R2 & R3) O A H.
  assert (I : inv env input_names (rev (map (fun s => (s, 1)) input_names))).
  { split.
    - intros s Hs. apply map_get_some. rewrite map_rev, map_map. cbn. rewrite map_id. apply in_rev in Hs. exact Hs.
    - intros s b E. apply map_get_in, in_rev, in_map_iff in E. destruct E as (x & [= -> <-] & Hx). split; [lra|]. intros t Et. eapply R1; eassumption. }
  destruct (loop alpha shapes env Ha R3 layers _ _ _ _ _ I O R2 A H) as ((J0 & J1) & _ & J2). split; [|exact J2].
  intros l j s t Hl Es Et. destruct (J0 s) as [b Hb].
  - apply in_or_app. right. apply in_flat_map. exists l. split; [exact Hl|eapply nth_error_In, Es].
  - exists b. split; [exact Hb|]. apply (J1 s b Hb), Et.
Qed.
