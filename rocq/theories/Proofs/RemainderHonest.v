(** Honest witnesses of the Remainder backend: one layer at a time. *)
From Coq Require Import ZArith Znumtheory List Bool Lia String.
From Verif Require Import Base.Array Base.Machine Spec.Numbers Spec.Remainder Spec.RemainderCircuit Model.Remainder Model.RemainderWitness.
From Verif Require Import Proofs.RemainderArith Proofs.RemainderBuild Proofs.RemainderPublic Proofs.RemainderSound Proofs.RemainderLayers
  Proofs.RemainderImages Proofs.RemainderConv Proofs.RemainderNorm.
Import ListNotations.
Local Open Scope string_scope.
Local Open Scope Z_scope.

(** ** Lists *)

Lemma to_i64_inv x y : to_i64 x = Some y -> y = x /\ i64 x.
Proof. unfold to_i64, i64. intros H. apply signed_inv in H. change (- U64 / 2) with (- 2 ^ 63) in H. change (U64 / 2) with (2 ^ 63) in H. lia. Qed.

Lemma omap_i64 {A} (f : A -> Z) l r : omap (fun x => to_i64 (f x)) l = Some r -> r = map f l /\ Forall i64 r.
Proof.
  revert r. induction l as [|a l IH]; cbn [omap map]; intros r H.
  - injection H as <-. auto.
  - inv_step H. inv_step H. injection H as <-. apply to_i64_inv in E. destruct E as (-> & Hi). destruct (IH _ E0) as (-> & F). auto.
Qed.

Lemma checked_zip_inv f a b r : checked_zip f a b = Some r -> List.length a = List.length b ->
  zip_with f a b = Some r /\ Forall i64 r /\ List.length r = List.length a.
Proof.
  unfold checked_zip. intros H L. apply omap_i64 in H. destruct H as (-> & F). unfold zip_with. rewrite L, Nat.eqb_refl. cbn.
  split; [reflexivity|]. split; [exact F|]. rewrite map_length, combine_length. lia.
Qed.

Lemma zip_with_some f a b : List.length a = List.length b -> exists r, zip_with f a b = Some r.
Proof. intros L. unfold zip_with. rewrite L, Nat.eqb_refl. cbn. eauto. Qed.

Lemma at_ext (a b : list Z) : List.length a = List.length b -> (forall i, (i < List.length a)%nat -> at_ a i = at_ b i) -> a = b.
Proof.
  intros L H. rewrite (list_as_map a), (list_as_map b), <- L. apply map_ext_in. intros i Hi. apply in_seq in Hi. apply H. lia.
Qed.

Lemma holds_zero_intro p env e v : eval_sector env e = Some v -> (forall i, (i < List.length v)%nat -> at_ v i = 0) -> holds p env (Zero e) = true.
Proof.
  intros E H. cbn. rewrite E. apply forallb_forall. intros x Hx. apply In_nth with (d := 0) in Hx. destruct Hx as (i & Hi & <-).
  fold (at_ v i). rewrite H by auto. now rewrite Zmod_0_l.
Qed.

Lemma pad_same l n : List.length l = n -> pad_to_size l n = l.
Proof. intros <-. unfold pad_to_size. rewrite firstn_all, Nat.sub_diag. cbn. apply app_nil_r. Qed.

Lemma nvars_2 n : nvars (2 ^ n) = n.
Proof. unfold nvars. apply Nat.log2_up_pow2. lia. Qed.
Lemma pow2_for_2 n : pow2_for (2 ^ n) = (2 ^ n)%nat.
Proof. unfold pow2_for. now rewrite nvars_2. Qed.

(** ** Rescaling *)

Lemma rescale_split alpha v q r : 0 < alpha < 2 ^ 63 -> i64 v -> compute_rescale v alpha OFFSET = Some (q, r) ->
  v = alpha * q + r /\ i64 q.
Proof.
  intros Ha Hv H. unfold compute_rescale in H. inv_step H. injection H as <- <-. unfold OFFSET, i64 in *.
  set (sh := alpha * 2 ^ 30 + v) in *.
  pose proof (Z.quot_rem sh alpha ltac:(lia)) as Q. pose proof (Z.rem_bound_abs sh alpha ltac:(lia)) as R.
  set (c := Z.quot sh alpha) in *. set (d := Z.rem sh alpha) in *.
  assert (D : v = alpha * (c - 2 ^ 30) + d) by (unfold sh in Q; lia).
  assert (Hq : - 2 ^ 63 <= c - 2 ^ 30 < 2 ^ 63).
  { assert (S : sh < 0 \/ 0 <= sh) by lia. destruct S as [S|S].
    - assert (d <= 0) by (unfold d; apply Z.rem_nonpos; lia).
      assert (c <= 0) by (unfold c; pose proof (Z.quot_opp_l sh alpha ltac:(lia)); pose proof (Z.quot_pos (- sh) alpha ltac:(lia) ltac:(lia)); lia).
      nia.
    - assert (0 <= d) by (unfold d; apply Z.rem_nonneg; lia).
      assert (0 <= c) by (unfold c; apply Z.quot_pos; lia). nia. }
  rewrite (as_i64_id (c - 2 ^ 30)) by exact Hq. rewrite as_i64_id by (unfold i64; lia). lia.
Qed.

Lemma rescale_array_split alpha vs q r : 0 < alpha < 2 ^ 63 -> Forall i64 vs -> compute_rescale_array vs alpha OFFSET = Some (q, r) ->
  List.length q = List.length vs /\ List.length r = List.length vs /\ Forall i64 q /\
  forall i, (i < List.length vs)%nat -> at_ vs i = alpha * at_ q i + at_ r i.
Proof.
  intros Ha Hv H. unfold compute_rescale_array in H. inv_step H. injection H as <- <-. apply omap_map in E.
  rewrite !map_length. induction E as [|v qr vs qrs E _ IH]; cbn; [repeat split; auto; lia|].
  inversion Hv; subst. destruct (IH ltac:(assumption)) as (I1 & I2 & I3 & I4). destruct qr as (q0, r0).
  destruct (rescale_split _ _ _ _ Ha ltac:(eassumption) E) as (Ev & Hq). cbn.
  split; [lia|]. split; [lia|]. split; [now constructor|]. intros [|i] Hi; [exact Ev|]. cbn. apply I4. lia.
Qed.

(** ** States *)

Definition owned' (n : string) (s : shred) : Prop := match s with SChunk _ s => owned n s | _ => owned n s end.

Lemma insert_range_inv s values w st st' : insert_range s values w st = Some st' ->
  (forall y, In y values -> in_width w y) /\
  st' = if (CHUNK_BITS <? w)%nat
        then insert_shred (SChunk true s) (map (fun v => Z.quot v (2 ^ Z.of_nat CHUNK_BITS)) values)
               (insert_shred (SChunk false s) (map (fun v => Z.rem v (2 ^ Z.of_nat CHUNK_BITS)) values) st)
        else st.
Proof.
  unfold insert_range. intros H. inv_step H. injection H as <-. split.
  - intros y Hy. destruct (Z_le_dec 0 y), (Z_lt_dec y (2 ^ Z.of_nat w)); [split; auto| | |];
      (rewrite (split_err values w) in E; [discriminate|]; exists y; split; [exact Hy|]; unfold in_width; lia).
  - unfold split_range in E. destruct (CHUNK_BITS <? w)%nat.
    + inv_step E. inv_step E. injection E as <-. reflexivity.
    + inv_step E. injection E as <-. reflexivity.
Qed.

Lemma insert_range_rest s values w st st' : insert_range s values w st = Some st' ->
  w_tensors st' = w_tensors st /\ w_layouts st' = w_layouts st /\ w_observed st' = w_observed st /\
  (forall s', s' <> SChunk true s -> s' <> SChunk false s -> sget (w_shreds st') s' = sget (w_shreds st) s') /\
  ((CHUNK_BITS < w)%nat -> sget (w_shreds st') (SChunk false s) = Some (map (fun v => Z.rem v (2 ^ Z.of_nat CHUNK_BITS)) values) /\
     sget (w_shreds st') (SChunk true s) = Some (map (fun v => Z.quot v (2 ^ Z.of_nat CHUNK_BITS)) values)).
Proof.
  intros H. apply insert_range_inv in H. destruct H as (_ & ->). destruct (Nat.ltb_spec CHUNK_BITS w) as [Hw|Hw].
  - cbn. split; [reflexivity|]. split; [reflexivity|]. split; [reflexivity|]. split.
    + intros s' N1 N2. destruct (shred_eqb_spec (SChunk true s) s'); [congruence|]. destruct (shred_eqb_spec (SChunk false s) s'); congruence.
    + intros _. rewrite shred_eqb_refl. destruct (shred_eqb_spec (SChunk true s) (SChunk false s)); [congruence|]. now rewrite shred_eqb_refl.
  - repeat split; auto; lia.
Qed.

Lemma insert_rescaled_inv m name values st q st' : 0 < m_alpha m < 2 ^ 63 -> Forall i64 values ->
  insert_rescaled m name values st = Some (q, st') ->
  exists r, List.length q = List.length values /\ List.length r = List.length values /\ Forall i64 q /\
    (forall i, (i < List.length values)%nat -> at_ values i = m_alpha m * at_ q i + at_ r i) /\
    (forall y, In y r -> in_width (m_exponent m) y) /\
    w_tensors st' = w_tensors st /\ w_layouts st' = w_layouts st /\ w_observed st' = w_observed st /\
    sget (w_shreds st') (SLayer name "q") = Some q /\ sget (w_shreds st') (SLayer name "r") = Some r /\
    (forall t, t <> "q" -> t <> "r" -> sget (w_shreds st') (SLayer name t) = sget (w_shreds st) (SLayer name t)) /\
    ((CHUNK_BITS < m_exponent m)%nat ->
       sget (w_shreds st') (SChunk false (SLayer name "r")) = Some (map (fun v => Z.rem v (2 ^ Z.of_nat CHUNK_BITS)) r) /\
       sget (w_shreds st') (SChunk true (SLayer name "r")) = Some (map (fun v => Z.quot v (2 ^ Z.of_nat CHUNK_BITS)) r)).
Proof.
  intros Ha Hv H. unfold insert_rescaled in H. inv_step H. destruct a as (q', r). inv_step H. injection H as <- <-.
  destruct (rescale_array_split _ _ _ _ Ha Hv E) as (L1 & L2 & F & A).
  pose proof (insert_range_inv _ _ _ _ _ E0) as (R & _).
  apply insert_range_rest in E0. destruct E0 as (T1 & T2 & T3 & O & C).
  exists r. do 5 (split; [assumption|]). do 3 (split; [rewrite ?T1, ?T2, ?T3; reflexivity|]).
  split; [rewrite O by discriminate; cbn; destruct (shred_eqb_spec (SLayer name "r") (SLayer name "q")); [congruence|]; now rewrite shred_eqb_refl|].
  split; [rewrite O by discriminate; cbn; now rewrite shred_eqb_refl|].
  split; [|exact C].
  intros t N1 N2. rewrite O by discriminate. cbn. destruct (shred_eqb_spec (SLayer name "r") (SLayer name t)); [congruence|].
  destruct (shred_eqb_spec (SLayer name "q") (SLayer name t)); congruence.
Qed.

(** What a layer adds to the shreds. *)
Definition wext (n : string) (a b : wstate) : Prop :=
  (exists m, w_shreds b = (m ++ w_shreds a)%list /\ forall e, In e m -> owned' n (fst e)) /\
  (forall k, k <> n -> hget (w_observed b) k = hget (w_observed a) k).
Lemma wext_refl n a : wext n a a.
Proof. split; [now exists []|reflexivity]. Qed.
Lemma wext_trans n a b c : wext n a b -> wext n b c -> wext n a c.
Proof.
  intros ((m1 & E1 & F1) & O1) ((m2 & E2 & F2) & O2). split.
  - exists (m2 ++ m1)%list. split; [now rewrite E2, E1, app_assoc|]. intros e He. apply in_app_or in He. destruct He; auto.
  - intros k Hk. now rewrite O2, O1.
Qed.
Lemma wext_shred n s v a b : owned' n s -> wext n a b -> wext n a (insert_shred s v b).
Proof.
  intros Hs H. apply (wext_trans _ _ _ _ H). split; [|reflexivity].
  exists [(s, v)]. split; [reflexivity|]. intros e [<-|[]]. exact Hs.
Qed.
Lemma wext_observed n v a b : wext n a b -> wext n a (insert_observed n v b).
Proof.
  intros H. apply (wext_trans _ _ _ _ H). split; [now exists []|]. intros k Hk. cbn. destruct (String.eqb_spec n k); congruence.
Qed.
Lemma wext_tensors n o v a b : wext n a b -> wext n a (insert_tensors o v b).
Proof. intros H. exact H. Qed.
Lemma wext_layouts n o v a b : wext n a b -> wext n a (insert_layouts o v b).
Proof. intros H. exact H. Qed.
Lemma wext_range n s v w a b c : owned n s -> insert_range s v w b = Some c -> wext n a b -> wext n a c.
Proof.
  intros Hs H X. apply insert_range_inv in H. destruct H as (_ & ->). destruct (_ <? _)%nat; [|exact X].
  apply wext_shred; [exact Hs|]. apply wext_shred; [exact Hs|exact X].
Qed.
Lemma wext_rescaled m n v a b c q : insert_rescaled m n v b = Some (q, c) -> wext n a b -> wext n a c.
Proof.
  intros H X. unfold insert_rescaled in H. inv_step H. destruct a0 as (q', r). inv_step H. injection H as <- <-.
  eapply wext_range; [|exact E0|]; [reflexivity|]. apply wext_shred; [reflexivity|]. apply wext_shred; [reflexivity|exact X].
Qed.
Lemma wext_fold n (ds : list (shred * list Z)) : forall a b, (forall d, In d ds -> owned n (fst d)) -> wext n a b ->
  wext n a (fold_left (fun st d => insert_shred (fst d) (snd d) st) ds b).
Proof.
  induction ds as [|d ds IH]; intros a b H X; [exact X|]. cbn [fold_left]. apply IH; [intros; apply H; now right|].
  apply wext_shred; [|exact X]. specialize (H d (or_introl eq_refl)). destruct (fst d); auto. destruct H.
Qed.
Lemma wext_ranges n w (ds : list (shred * list Z)) : forall a b c, (forall d, In d ds -> owned n (fst d)) ->
  for_each ds (fun d st => insert_range (fst d) (snd d) w st) b = Some c -> wext n a b -> wext n a c.
Proof.
  induction ds as [|d ds IH]; intros a b c H E X; [injection E as <-; exact X|]. cbn [for_each] in E. inv_step E.
  apply (IH a a0 c); [intros; apply H; now right|exact E|]. eapply wext_range; [|exact E0|exact X]. apply H. now left.
Qed.

Lemma witness_layer_ext m l a b : witness_layer m l a = Some b -> wext (l_name l) a b.
Proof.
  unfold witness_layer. destruct (l_op l); intros H; try discriminate.
  - unfold witness_gemm in H. inv_step H. inv_step H. inv_step H. inv_step H. destruct a2 as (((w, bias), k), n). inv_step H. inv_step H. inv_step H.
    destruct a4 as (q, st). injection H as <-. apply wext_tensors. eapply wext_rescaled; [exact E4|]. do 2 (apply wext_shred; [reflexivity|]). apply wext_refl.
  - unfold witness_conv in H. inv_step H. inv_step H. inv_step H. inv_step H. destruct a3 as ((w, bias), g). inv_step H. inv_step H. inv_step H. inv_step H.
    destruct a6 as (q, st). injection H as <-. apply wext_layouts, wext_tensors. eapply wext_rescaled; [exact E6|].
    do 2 (apply wext_shred; [reflexivity|]). apply wext_refl.
  - unfold witness_relu in H. inv_step H. inv_step H. inv_step H. inv_step H. inv_step H. injection H as <-. apply wext_layouts, wext_tensors.
    eapply wext_range; [|exact E3|]; [reflexivity|]. eapply wext_range; [|exact E2|]; [reflexivity|]. apply wext_observed.
    do 4 (apply wext_shred; [reflexivity|]). apply wext_refl.
  - unfold witness_maxpool in H. inv_step H. inv_step H. inv_step H. inv_step H. inv_step H. destruct a4 as (maxes, elems). inv_step H. inv_step H.
    injection H as <-. apply wext_layouts, wext_tensors.
    assert (D : forall d, In d (combine (map (SDelta (l_name l)) (seq 0 (p_window a3))) a4) -> owned (l_name l) (fst d)).
    { intros (s, v) Hd. apply in_combine_l in Hd. apply in_map_iff in Hd. destruct Hd as (i & <- & _). reflexivity. }
    eapply wext_ranges; [exact D|exact E5|]. apply wext_observed. apply wext_fold; [exact D|]. apply wext_shred; [reflexivity|]. apply wext_refl.
  - unfold witness_addsub in H. inv_step H. inv_step H. inv_step H. inv_step H. inv_step H. injection H as <-. apply wext_layouts, wext_tensors.
    apply wext_shred; [reflexivity|]. destruct (hget (w_tensors a) a0), (hget (w_tensors a) a1); repeat (apply wext_shred; [reflexivity|]); apply wext_refl.
  - unfold witness_addsub in H. inv_step H. inv_step H. inv_step H. inv_step H. inv_step H. injection H as <-. apply wext_layouts, wext_tensors.
    apply wext_shred; [reflexivity|]. destruct (hget (w_tensors a) a0), (hget (w_tensors a) a1); repeat (apply wext_shred; [reflexivity|]); apply wext_refl.
  - unfold witness_batchnorm in H. inv_step H. inv_step H. inv_step H. destruct a2 as (mul, add). inv_step H. inv_step H. inv_step H. destruct a4 as (q, st).
    injection H as <-. apply wext_layouts, wext_tensors. eapply wext_rescaled; [exact E4|]. do 2 (apply wext_shred; [reflexivity|]). apply wext_refl.
  - unfold witness_cast in H. inv_step H. inv_step H. injection H as <-. apply wext_layouts, wext_tensors, wext_refl.
  - unfold witness_reshape in H. inv_step H. inv_step H. injection H as <-. destruct (layout_from_output_shape _ _); exact (wext_refl _ a).
Qed.
