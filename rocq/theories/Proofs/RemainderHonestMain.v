(** Proofs of the honest prover are accepted. *)
From Coq Require Import ZArith Znumtheory List Bool Lia String ArithRing.
From Verif Require Import Base.Array Base.Machine Spec.Numbers Spec.Remainder Spec.RemainderCircuit Spec.RemainderHonest Model.Remainder Model.RemainderWitness.
From Verif Require Import Proofs.RemainderArith Proofs.RemainderBuild Proofs.RemainderPublic Proofs.RemainderSound Proofs.RemainderLayers
  Proofs.RemainderImages Proofs.RemainderConv Proofs.RemainderNorm Proofs.RemainderHonest Proofs.RemainderHonestTaps Proofs.RemainderHonestLayers.
Import ListNotations.
Local Open Scope Z_scope.

(** ** Ownership *)

Definition owned'_by_any (ns : list string) (t : shred) : Prop := exists n, In n ns /\ owned' n t.

Lemma owned'_unique n n' t : owned' n t -> owned' n' t -> n = n'.
Proof. destruct t as [| | |h t| |]; cbn; try easy; try congruence. destruct t; cbn; try easy; congruence. Qed.

Lemma witness_layers_ext m ls : forall a b, for_each ls (witness_layer m) a = Some b ->
  (exists e, w_shreds b = e ++ w_shreds a /\ forall t, In t e -> owned'_by_any (map l_name ls) (fst t)) /\
  (forall n, ~ In n (map l_name ls) -> hget (w_observed b) n = hget (w_observed a) n).
Proof.
  induction ls as [|l ls IH]; cbn [for_each]; intros a b H.
  - injection H as <-. split; [now exists []|reflexivity].
  - inv_step H. apply witness_layer_ext in E. destruct E as ((e1 & E1 & F1) & O1). destruct (IH _ _ H) as ((e2 & E2 & F2) & O2).
    split.
    + exists (e2 ++ e1). split; [now rewrite E2, E1, app_assoc|]. intros t Ht. apply in_app_or in Ht. destruct Ht as [Ht|Ht].
      * destruct (F2 t Ht) as (n & Hn & Ho). exists n. split; [now right|exact Ho].
      * exists (l_name l). split; [now left|auto].
    + intros n Hn. rewrite O2, O1; [reflexivity| |]; intros F; apply Hn; [now left|now right].
Qed.

Lemma witness_layers_other m ls a b t : for_each ls (witness_layer m) a = Some b -> ~ owned'_by_any (map l_name ls) t ->
  sget (w_shreds b) t = sget (w_shreds a) t.
Proof.
  intros H N. destruct (witness_layers_ext _ _ _ _ H) as ((e & E & F) & _). rewrite E, sget_app, (sget_none e); [reflexivity|].
  intros x Hx Et. apply N. rewrite <- Et. auto.
Qed.

(** ** One layer *)

Section Main.
Variables (p : Z) (W : list (shred * list Z)) (man : manifest) (T : list nat).
Variables (o : hmap nat) (m : model).
Hypothesis Ha : 0 < m_alpha m < 2 ^ 63.

Definition sizes_ok (l : layer) (ws : wstate) : Prop :=
  (l_op l = Gemm -> forall x v k n wn wt, aget (l_inputs l) 0 = Some x -> hget (w_tensors ws) x = Some v ->
     aget (l_inputs l) 1 = Some wn -> hget (l_weights l) wn = Some wt -> gemm_dims l (fst wt) = Some (k, n) -> List.length v = pow2_for k) /\
  (l_op l = Add \/ l_op l = Sub -> hget (l_weights l) "result" = None /\
    let get x := match hget (w_tensors ws) x with Some v => Some v | None => let* w := hget (l_weights l) x in Some (snd w) end in
    forall a c va vc, aget (l_inputs l) 0 = Some a -> aget (l_inputs l) 1 = Some c -> get a = Some va -> get c = Some vc ->
      pow2_for (List.length va) = pow2_for (List.length vc)).

Lemma relu_observed l ws ws' : witness_relu m l ws = Some ws' -> hget (w_observed ws') (l_name l) <> None.
Proof.
  unfold witness_relu. intros H. inv_step H. inv_step H. inv_step H. inv_step H. inv_step H. injection H as <-.
  apply insert_range_rest in E2, E3. cbn [insert_layouts insert_tensors w_observed]. destruct E3 as (_ & _ & -> & _), E2 as (_ & _ & -> & _).
  cbn. rewrite String.eqb_refl. discriminate.
Qed.
Lemma ranges_observed (ds : list (shred * list Z)) w : forall st st', for_each ds (fun d st => insert_range (fst d) (snd d) w st) st = Some st' ->
  w_observed st' = w_observed st.
Proof.
  induction ds as [|d ds IH]; intros st st' H; [now injection H as <-|]. cbn [for_each] in H. inv_step H. rewrite (IH _ _ H).
  now apply insert_range_rest in E.
Qed.
Lemma maxpool_observed l ws ws' : witness_maxpool m l ws = Some ws' -> hget (w_observed ws') (l_name l) <> None.
Proof.
  unfold witness_maxpool. intros H. inv_step H. inv_step H. inv_step H. inv_step H. inv_step H. destruct a3 as (mx, el). inv_step H. inv_step H. injection H as <-.
  cbn [insert_layouts insert_tensors w_observed]. rewrite (ranges_observed _ _ _ _ E5). cbn. rewrite String.eqb_refl. discriminate.
Qed.

Lemma honest_layer l ws ws' b b' s :
  build_layer (apply_observed o m) (obs o l) b = Some b' -> witness_layer m l ws = Some ws' ->
  tracked W man ws b s -> (image_op (l_op l) -> same_layouts ws b s) ->
  (forall t, owned (l_name l) t -> sget W t = sget (w_shreds ws') t) ->
  (forall h t, owned (l_name l) t -> sget W (SChunk h t) = sget (w_shreds ws') (SChunk h t)) ->
  (forall e, In e (b_manifest b') -> sget man (fst e) <> None) ->
  hget o (l_name l) = hget (w_observed ws') (l_name l) ->
  (exists ts, layer_tables m o l = Some ts /\ incl ts T) -> sizes_ok l ws ->
  exists s', public_layer (obs o l) s = Some s' /\ step p W man T l ws b s ws' b' s'.
Proof.
  intros B Wt Tr SL HW HC HM HO HT (HS1 & HS2). rewrite public_obs. unfold build_layer in B. rewrite (proj1 (proj2 (obs_same o l))) in B.
  unfold witness_layer in Wt. unfold layer_tables in HT. destruct (l_op l) eqn:Eop; try discriminate.
  - eapply honest_gemm; eauto. unfold obs in B. destruct (hget o (l_name l)); exact B.
  - eapply honest_conv; eauto; [|now apply SL]. unfold obs in B. destruct (hget o (l_name l)); exact B.
  - pose proof (relu_observed _ _ _ Wt) as Ho. rewrite <- HO in Ho. unfold layer_bits in HT. unfold obs in B.
    destruct (hget o (l_name l)) as [bits|] eqn:Eb; [|congruence]. eapply honest_relu; eauto.
  - pose proof (maxpool_observed _ _ _ Wt) as Ho. rewrite <- HO in Ho. unfold layer_bits in HT. unfold obs in B.
    destruct (hget o (l_name l)) as [bits|] eqn:Eb; [|congruence]. eapply honest_maxpool; eauto; [now apply SL|].
    destruct HT as (ts & Et & Hi). inv_step Et. inv_step Et. eauto.
  - destruct (HS2 (or_introl eq_refl)) as (HR & HS). eapply (honest_addsub p W man T l true); eauto. unfold obs in B. destruct (hget o (l_name l)); exact B.
  - destruct (HS2 (or_intror eq_refl)) as (HR & HS). eapply (honest_addsub p W man T l false); eauto. unfold obs in B. destruct (hget o (l_name l)); exact B.
  - eapply honest_batchnorm; eauto; [|now apply SL]. unfold obs in B. destruct (hget o (l_name l)); exact B.
  - eapply honest_cast; eauto. unfold obs in B. destruct (hget o (l_name l)); exact B.
  - eapply honest_reshape; eauto. unfold obs in B. destruct (hget o (l_name l)); exact B.
Qed.

(** ** All layers *)

Definition public_ok (b : bstate) (s : pstate) : Prop :=
  forall t nv, In (t, (nv, Public)) (b_manifest b) -> exists v, sget (ps_shreds s) t = Some v /\ sget W t = Some v.

Lemma honest_layers ls : forall ws wsf b bf s,
  for_each ls (witness_layer m) ws = Some wsf -> build_layers (apply_observed o m) (map (obs o) ls) b = Some bf ->
  NoDup (map l_name ls) ->
  (forall n t, In n (map l_name ls) -> owned' n t -> sget W t = sget (w_shreds wsf) t) ->
  (forall e, In e (b_manifest bf) -> sget man (fst e) <> None) ->
  (forall n, In n (map l_name ls) -> hget o n = hget (w_observed wsf) n) ->
  (forall l, In l ls -> exists ts, layer_tables m o l = Some ts /\ incl ts T) ->
  (forall l1 l l2 l', ls = l1 ++ l :: l2 -> l_op l = Reshape -> In l' l2 -> ~ image_op (l_op l')) ->
  (same_layouts ws b s \/ forall l, In l ls -> ~ image_op (l_op l)) ->
  (forall l1 l l2 ws1, ls = l1 ++ l :: l2 -> for_each l1 (witness_layer m) ws = Some ws1 -> sizes_ok l ws1) ->
  tracked W man ws b s ->
  (forall c, In c (b_checks b) -> holds p (wenv W man) c = true) ->
  (forall rc, In rc (b_ranges b) -> range_ok W man T rc) ->
  public_ok b s -> (forall e, In e (b_manifest b) -> ~ owned_by_any (map l_name ls) (fst e)) ->
  exists sf, for_each (map (obs o) ls) public_layer s = Some sf /\ tracked W man wsf bf sf /\
    (forall c, In c (b_checks bf) -> holds p (wenv W man) c = true) /\
    (forall rc, In rc (b_ranges bf) -> range_ok W man T rc) /\ public_ok bf sf /\
    (forall l1 l2 ws1 b1, ls = l1 ++ l2 -> for_each l1 (witness_layer m) ws = Some ws1 ->
       build_layers (apply_observed o m) (map (obs o) l1) b = Some b1 -> exists s1, tracked W man ws1 b1 s1).
Proof.
  induction ls as [|l ls IH]; intros ws wsf b bf s Wt B ND HW HM HO HT HI SL HS Tr Hc Hr Hp Hown.
  - cbn in *. injection Wt as <-. injection B as <-. exists s. do 5 (split; [auto|]).
    intros l1 l2 ws1 b1 E. destruct l1; [|discriminate]. cbn. intros E1 E2. injection E1 as <-. injection E2 as <-. eauto.
  - cbn [for_each] in Wt. inv_step Wt. rename a into ws1, E into E1.
    unfold build_layers in B. cbn [map for_each] in B. inv_step B. rename a into b1, E into E2.
    change (build_layers (apply_observed o m) (map (obs o) ls) b1 = Some bf) in B.
    cbn [map] in ND. inversion ND as [|? ? Nl NDs]; subst.
    assert (NO : forall t, owned' (l_name l) t -> ~ owned'_by_any (map l_name ls) t).
    { intros t Ht (n & Hn & Hn'). assert (n = l_name l) by (eapply owned'_unique; eauto). congruence. }
    assert (HW1 : forall t, owned' (l_name l) t -> sget W t = sget (w_shreds ws1) t).
    { intros t Ht. rewrite (HW (l_name l)) by (auto; now left). apply (witness_layers_other _ _ _ _ _ Wt). now apply NO. }
    pose proof (build_layers_ext _ _ _ _ B) as X.
    destruct (honest_layer l ws ws1 b b1 s) as (s1 & P1 & ST); auto.
    + intros Hi. destruct SL as [SL|SL]; [exact SL|]. exfalso. exact (SL l (or_introl eq_refl) Hi).
    + intros t Ht. apply HW1. destruct t; auto. destruct Ht.
    + intros e He. apply HM. destruct X as (_ & _ & mm & Em & _). rewrite Em. apply in_or_app. now right.
    + rewrite (HO (l_name l)) by (now left). now apply (witness_layers_ext _ _ _ _ Wt).
    + apply HT. now left.
    + apply (HS [] l ls ws); reflexivity.
    + pose proof (build_layer_ext _ _ _ _ E2) as X1. rewrite (proj1 (obs_same o l)) in X1.
      pose proof (public_layer_ext _ _ _ P1) as Y1. rewrite (proj1 (obs_same o l)) in Y1.
      destruct (IH ws1 wsf b1 bf s1) as (sf & Q1 & Q2 & Q3 & Q4 & Q5 & Q6); auto.
      * intros n t Hn Ht. apply (HW n); auto. now right.
      * intros n Hn. apply HO. now right.
      * intros l' Hl'. apply HT. now right.
      * intros l1 l0 l2 l' El. apply (HI (l :: l1) l0 l2). now rewrite El.
      * destruct SL as [SL|SL]; [|right; intros; apply SL; now right].
        assert (D : l_op l = Reshape \/ l_op l <> Reshape) by (destruct (l_op l); (left; reflexivity) || (right; discriminate)).
        destruct D as [Er|Er]; [right; intros l' Hl'; now apply (HI [] l ls l')|].
        left. apply (st_layouts _ _ _ _ _ _ _ _ _ _ _ ST); auto.
      * intros l1 l0 l2 ws2 El Ew. apply (HS (l :: l1) l0 l2); [now rewrite El|]. cbn [for_each]. now rewrite E1.
      * apply (st_tracked _ _ _ _ _ _ _ _ _ _ _ ST).
      * intros c Hin. destruct (st_checks _ _ _ _ _ _ _ _ _ _ _ ST c Hin); auto.
      * intros c Hin. destruct (st_ranges _ _ _ _ _ _ _ _ _ _ _ ST c Hin); auto.
      * intros t nv Hin. destruct (st_public _ _ _ _ _ _ _ _ _ _ _ ST t nv Hin) as [Hin'|H]; [|exact H].
        destruct (Hp _ _ Hin') as (v & Ev & Ew). exists v. split; [|exact Ew]. rewrite (pext_other _ _ _ _ Y1); [exact Ev|].
        intros Ho. apply (Hown _ Hin'). exists (l_name l). split; [now left|exact Ho].
      * intros e He (n & Hn & Ho). destruct (ext_in_manifest _ _ _ _ X1 He) as [He'|Hl].
        -- apply (Hown _ He'). exists n. split; [now right|exact Ho].
        -- assert (n = l_name l) by (destruct (fst e); cbn [owned] in *; try easy; congruence). congruence.
      * exists sf. split; [cbn [map for_each]; rewrite P1; cbn [obind]; exact Q1|]. do 4 (split; [assumption|]).
        intros l1 l2 ws2 b2 El Ew Eb. destruct l1 as [|l0 l1].
        -- injection Ew as <-. injection Eb as <-. eauto.
        -- injection El as <- El. cbn [for_each] in Ew. rewrite E1 in Ew. unfold build_layers in Eb. cbn [map for_each] in Eb. rewrite E2 in Eb.
           apply (Q6 l1 l2 ws2 b2 El Ew Eb).
Qed.

(** ** Range checks *)

Lemma wenv_in s : sget man s <> None -> wenv W man s = sget W s.
Proof. unfold wenv. destruct (sget man s); [reflexivity|congruence]. Qed.

Lemma range_table_has t y : in_width t y -> In y (range_table t).
Proof.
  unfold in_width, range_table. intros H. apply in_map_iff. exists (Z.to_nat y). split; [lia|]. apply in_seq.
  pose proof (pow2_nat_Z t). lia.
Qed.

Lemma lookup_holds env n t v : eval_node env n = Some v -> env (STable t) = Some (range_table t) -> (forall y, In y v -> in_width t y) ->
  holds p env (Lookup n t) = true.
Proof.
  intros E Et H. cbn. rewrite E, Et. apply forallb_forall. intros y Hy. apply existsb_exists. exists y. split; [now apply range_table_has, H|].
  now rewrite Z.sub_diag, Zmod_0_l.
Qed.

Hypothesis HTab : forall t, In t T -> sget W (STable t) = Some (range_table t).

Lemma range_ok_holds rc : range_ok W man T rc -> let '(s, n, t, nv) := rc in
  (forall t', (if (t <=? CHUNK_BITS)%nat then t' = t else t' = CHUNK_BITS \/ t' = (t - CHUNK_BITS)%nat) -> sget man (STable t') <> None) ->
  ((CHUNK_BITS < t)%nat -> sget man (SChunk false s) <> None /\ sget man (SChunk true s) <> None) ->
  forall c, In c (range_checks_of rc) -> holds p (wenv W man) c = true.
Proof.
  destruct rc as (((s, n), t), nv). intros (v & ts & Ev & Lv & Rv & Et & Hi & Hch) HMt HMc c Hc.
  assert (Tab : forall t', In t' ts -> sget man (STable t') <> None -> wenv W man (STable t') = Some (range_table t')).
  { intros t' Ht' Hm. unfold wenv. destruct (sget man (STable t')); [|congruence]. apply HTab. auto. }
  unfold range_checks_of in Hc. unfold width_tables in Et. destruct (Nat.leb_spec t CHUNK_BITS) as [Hl|Hl].
  - injection Et as <-. destruct Hc as [<-|[]]. apply lookup_holds with v; auto. apply Tab; [now left|]. now apply HMt.
  - inv_step Et. injection Et as <-. destruct (Hch Hl) as (C1 & C2). destruct (HMc Hl) as (M1 & M2).
    assert (V1 : eval_node (wenv W man) (NShred (SChunk false s) nv) = Some (lows v)).
    { apply shred_eval; [|unfold lows; now rewrite map_length]. now rewrite wenv_in. }
    assert (V2 : eval_node (wenv W man) (NShred (SChunk true s) nv) = Some (highs v)).
    { apply shred_eval; [|unfold highs; now rewrite map_length]. now rewrite wenv_in. }
    assert (P9 : 2 ^ Z.of_nat CHUNK_BITS = 512) by reflexivity.
    assert (Pt : 2 ^ Z.of_nat t = 512 * 2 ^ Z.of_nat (t - CHUNK_BITS)).
    { rewrite <- P9, <- Z.pow_add_r by lia. f_equal. lia. }
    destruct Hc as [<-|[<-|[<-|[]]]].
    + destruct (zip_with_some Z.add (lows v) (map (Z.mul (2 ^ Z.of_nat CHUNK_BITS)) (highs v))) as (d & Ed); [unfold lows, highs; now rewrite !map_length|].
      destruct (zip_with_inv _ _ _ _ Ed) as (_ & Ld & Ad). unfold lows in Ld at 1. rewrite map_length in Ld.
      destruct (zip_with_some Z.sub d v Ld) as (e & Ee). destruct (zip_with_inv _ _ _ _ Ee) as (_ & Le & Ae).
      apply holds_zero_intro with e.
      * cbn [eval_sector]. rewrite V1, V2, Ev. cbn [obind]. rewrite Ed. cbn [obind]. exact Ee.
      * intros i Hi'. rewrite Ae, Ad by (unfold lows; rewrite ?map_length; lia). unfold lows, highs. rewrite map_map, !at_map by lia.
        rewrite P9. pose proof (Z.quot_rem (at_ v i) 512 ltac:(lia)). lia.
    + apply lookup_holds with (lows v); auto.
      * apply Tab; [now left|]. apply HMt. now left.
      * intros y Hy. apply in_map_iff in Hy. destruct Hy as (y0 & <- & Hx). apply Rv in Hx. unfold in_width in *. rewrite P9.
        rewrite Z.rem_mod_nonneg by lia. apply Z.mod_pos_bound. lia.
    + apply lookup_holds with (highs v); auto.
      * apply Tab; [right; now left|]. apply HMt. now right.
      * intros y Hy. apply in_map_iff in Hy. destruct Hy as (y0 & <- & Hx). apply Rv in Hx. unfold in_width in *. rewrite P9, Pt in *.
        rewrite Z.quot_div_nonneg by lia. split; [apply Z.div_pos; lia|]. apply Z.div_lt_upper_bound; lia.
Qed.
End Main.

(** ** The final stage of the builder *)

Definition range_shreds_of (rc : shred * node * nat * nat) : manifest :=
  let '(s, n, t, nv) := rc in
  if (t <=? CHUNK_BITS)%nat then [(STable t, (t, Public))]
  else [(STable (t - CHUNK_BITS), ((t - CHUNK_BITS)%nat, Public)); (STable CHUNK_BITS, (CHUNK_BITS, Public));
        (SChunk true s, (nv, Committed)); (SChunk false s, (nv, Committed))].

Lemma add_range_check_eq b rc : (forall c, In c (b_checks (add_range_check b rc)) -> In c (range_checks_of rc) \/ In c (b_checks b)) /\
  b_manifest (add_range_check b rc) = range_shreds_of rc ++ b_manifest b.
Proof.
  destruct rc as (((s, n), t), nv). unfold add_range_check, range_checks_of, range_shreds_of. destruct (t <=? CHUNK_BITS)%nat; cbn.
  - split; [|reflexivity]. intuition.
  - split; [|reflexivity]. intuition.
Qed.

Lemma fold_range_conv rcs : forall b, 
  (forall c, In c (b_checks (fold_left add_range_check rcs b)) -> In c (b_checks b) \/ exists rc, In rc rcs /\ In c (range_checks_of rc)) /\
  (forall e, In e (b_manifest (fold_left add_range_check rcs b)) -> In e (b_manifest b) \/ exists rc, In rc rcs /\ In e (range_shreds_of rc)) /\
  (forall e, In e (b_manifest b) -> In e (b_manifest (fold_left add_range_check rcs b))) /\
  (forall rc e, In rc rcs -> In e (range_shreds_of rc) -> In e (b_manifest (fold_left add_range_check rcs b))).
Proof.
  induction rcs as [|r rcs IH]; intros b; [cbn; repeat split; auto; tauto|]. cbn [fold_left].
  destruct (add_range_check_eq b r) as (C & M). destruct (IH (add_range_check b r)) as (I1 & I2 & I3 & I4). rewrite M in *.
  split; [|split; [|split]].
  - intros c Hc. destruct (I1 c Hc) as [H|(rc & H & H')]; [|right; exists rc; split; [now right|exact H']].
    destruct (C c H) as [H'|H']; [right; exists r; split; [now left|exact H']|now left].
  - intros e He. destruct (I2 e He) as [H|(rc & H & H')]; [|right; exists rc; split; [now right|exact H']].
    apply in_app_or in H. destruct H as [H|H]; [right; exists r; split; [now left|exact H]|now left].
  - intros e He. apply I3. apply in_or_app. now right.
  - intros rc e [<-|Hr] He; [apply I3; apply in_or_app; now left|eauto].
Qed.

Lemma in_sget {V} (l : list (shred * V)) s v : In (s, v) l -> sget l s <> None.
Proof.
  induction l as [|(a, u) l IH]; [easy|]. intros [H|H]; cbn.
  - injection H as -> ->. rewrite shred_eqb_refl. discriminate.
  - destruct (shred_eqb a s); [discriminate|auto].
Qed.

Lemma sget_tables T t : In t T -> sget (map (fun t => (STable t, range_table t)) T) (STable t) = Some (range_table t).
Proof.
  induction T as [|a T IH]; [easy|]. intros H. cbn [map sget]. destruct (shred_eqb_spec (STable a) (STable t)) as [E|N]; [injection E as ->; reflexivity|].
  apply IH. destruct H as [->|H]; [congruence|exact H].
Qed.
Lemma sget_no_table T s : (forall t, s <> STable t) -> sget (map (fun t => (STable t, range_table t)) T) s = None.
Proof. intros H. apply sget_none. intros e He E. apply in_map_iff in He. destruct He as (t & <- & _). apply (H t). now symmetry. Qed.

Lemma layer_tables_obs o m l : layer_tables (apply_observed o m) o (obs o l) = layer_tables m o l.
Proof. unfold layer_tables, layer_bits, obs. destruct (hget o (l_name l)) eqn:E; cbn; rewrite ?E; reflexivity. Qed.
Lemma plan_obs o m : range_check_plan (apply_observed o m) o = range_check_plan m o.
Proof.
  unfold range_check_plan. rewrite obs_layers.
  assert (Q : forall ls, omap (layer_tables (apply_observed o m) o) (map (obs o) ls) = omap (layer_tables m o) ls).
  { induction ls as [|l ls IH]; [reflexivity|]. cbn [map omap]. now rewrite layer_tables_obs, IH. }
  change (map _ (m_layers m)) with (map (obs o) (m_layers m)). now rewrite Q.
Qed.

Lemma plan_tables m o T l : range_check_plan m o = Some T -> In l (m_layers m) -> exists ts, layer_tables m o l = Some ts /\ incl ts T.
Proof.
  unfold range_check_plan. intros H Hl. inv_step H. injection H as <-. apply omap_map in E.
  induction E as [|x y ls rs E _ IH]; [easy|]. cbn [List.concat]. destruct Hl as [->|Hl].
  - exists y. split; [exact E|]. intros t Ht. apply in_or_app. now left.
  - destruct (IH Hl) as (ts & E' & I). exists ts. split; [exact E'|]. intros t Ht. apply in_or_app. right. auto.
Qed.

(** ** Evaluation depends on the values of shreds only *)

Lemma eval_node_ext env env' n : (forall s, env s = env' s) -> eval_node env n = eval_node env' n.
Proof. intros H. induction n as [s nv|a IHa ra ca b IHb rb cb|a IHa w nv]; cbn; [now rewrite H|now rewrite IHa, IHb|now rewrite IHa]. Qed.
Lemma eval_prod_ext env env' l : (forall s, env s = env' s) -> eval_prod env l = eval_prod env' l.
Proof.
  intros H. induction l as [|n l IH]; [reflexivity|]. destruct l as [|n' l]; [now apply eval_node_ext|].
  cbn [eval_prod] in *. now rewrite (eval_node_ext env env' n H), IH.
Qed.
Lemma eval_sector_ext env env' e : (forall s, env s = env' s) -> eval_sector env e = eval_sector env' e.
Proof.
  intros H. induction e as [n|a IHa b IHb|a IHa b IHb|c a IHa|l]; cbn [eval_sector];
    [now apply eval_node_ext|now rewrite IHa, IHb|now rewrite IHa, IHb|now rewrite IHa|now apply eval_prod_ext].
Qed.
Lemma holds_ext p env env' c : (forall s, env s = env' s) -> holds p env c = holds p env' c.
Proof. intros H. destruct c; cbn; [now rewrite (eval_sector_ext env env')|now rewrite (eval_node_ext env env'), H]. Qed.

(** ** The theorem *)

Lemma honest_accepted p m input w pf :
  NoDup (map l_name (m_layers m)) -> 0 < m_alpha m -> i64 (m_alpha m) -> (forall v, In v input -> i64 v) ->
  images_first m -> dense_sizes_agree m input -> operand_sizes_agree m input ->
  compute_witness m input = Some w -> generate_proof m w = Some pf ->
  verify p m pf input = true /\ pf_observed pf = wd_observed w /\
  (forall out, m_outputs m = [out] -> computed m input (List.length (m_layers m)) out = Some (pf_expected pf)) /\
  (forall k y, tensor_value m pf input k y = computed m input k y) /\
  (forall k y v, computed m input k y = Some v -> Forall i64 v).
Proof.
  intros ND Ha0 Ha1 Hin HI HSd HSo Wt Gp.
  unfold compute_witness in Wt. inv_step Wt. rename G into Gb. clear x. inv_step Wt. rename a into x, E into Ex. inv_step Wt. rename G into Gs.
  inv_step Wt. rename a into out, E into Eout. inv_step Wt. rename a into wsf, E into Ewt. inv_step Wt. rename a into final, E into Efin.
  inv_step Wt. rename a into T, E into Eplan. inv_step Wt. rename G into Gt. injection Wt as <-.
  destruct (m_outputs m) as [|out' [|]] eqn:Eo; try discriminate. injection Eout as ->.
  set (padded := pad_to_size input (pow2_for (List.length input))) in *.
  set (ws0 := mkW [(SInput x, padded)] [(x, padded)] (input_layouts m) []) in *.
  set (o := w_observed wsf) in *. set (W := map (fun t => (STable t, range_table t)) T ++ (SExpected, final) :: w_shreds wsf) in *.
  assert (Lp : List.length padded = pow2_for (List.length input)) by (unfold padded; apply pad_length).
  assert (WI : sget W (SInput x) = Some padded).
  { unfold W. rewrite sget_app, sget_no_table by discriminate. cbn [sget]. rewrite shred_neq by discriminate.
    rewrite (witness_layers_other _ _ _ _ _ Ewt) by (intros (? & _ & [])). cbn. now rewrite shred_eqb_refl. }
  assert (WO : forall n t, owned' n t -> sget W t = sget (w_shreds wsf) t).
  { intros n t Ht. unfold W. rewrite sget_app, sget_no_table by (intros t' ->; destruct Ht). cbn [sget].
    rewrite shred_neq by (intros <-; destruct Ht). reflexivity. }
  assert (WE : sget W SExpected = Some final).
  { unfold W. rewrite sget_app, sget_no_table by discriminate. reflexivity. }
  assert (WT : forall t, In t T -> sget W (STable t) = Some (range_table t)).
  { intros t Ht. unfold W. rewrite sget_app, sget_tables by auto. reflexivity. }
  unfold generate_proof in Gp. cbn [wd_observed wd_shreds] in Gp. change (m_inputs (apply_observed o m)) with (m_inputs m) in Gp.
  rewrite Ex in Gp. cbn [obind] in Gp. rewrite WI in Gp. cbn [obind] in Gp. inv_step Gp. destruct a as (checks, man). rename E into Ebc.
  inv_step Gp. clear G. rewrite WE in Gp. cbn [obind] in Gp. injection Gp as <-.
  rewrite Lp in Ebc. pose proof Ebc as Ebc0.
  unfold build_circuit in Ebc. inv_step Ebc. rename a into b0, E into Eb0. change (m_outputs (apply_observed o m)) with (m_outputs m) in Ebc.
  rewrite Eo in Ebc. cbn [obind] in Ebc. inv_step Ebc. clear G. inv_step Ebc. rename a into bf, E into Ebf. inv_step Ebc. rename a into nv, E into Env.
  inv_step Ebc. rename a into outn, E into Eoutn. cbn [add_shred b_nodes] in Eoutn.
  set (b2 := add_zero _ (add_shred SExpected nv Public bf)) in Ebc.
  destruct (fold_range_conv (rev (b_ranges b2)) b2) as (C1 & C2 & C3 & C4).
  injection Ebc as <- <-. set (b3 := fold_left add_range_check (rev (b_ranges b2)) b2) in *. set (man := b_manifest b3) in *.
  destruct (init_manifest _ _ _ Eb0) as (x' & Ex' & Eb). change (m_inputs (apply_observed o m)) with (m_inputs m) in Ex'.
  assert (x' = x) by (rewrite Ex' in Ex; now injection Ex). subst x'.
  assert (Mbf : forall e, In e (b_manifest bf) -> sget man (fst e) <> None).
  { intros (s, v) He. apply (in_sget _ s v). apply C3. cbn. now right. }
  change (m_layers (apply_observed o m)) with (map (obs o) (m_layers m)) in Ebf.
  set (s0 := mkP [(SInput x, padded)] [(x, pow2_for (List.length input))] (input_layouts m)).
  assert (ini : In (SInput x, (nvars (pow2_for (List.length input)), Public)) (b_manifest bf)).
  { destruct (build_layers_ext _ _ _ _ Ebf) as (_ & _ & mm & Em & _). rewrite Em. apply in_or_app. right. rewrite Eb. now left. }
  destruct (honest_layers p W man T o m ltac:(unfold i64 in Ha1; lia) (m_layers m) ws0 wsf b0 bf s0) as (sf & Psf & Trf & Ckf & Rgf & Pbf & Pre); auto.
  - intros n t _ Ht. now apply (WO n).
  - intros l Hl. now apply (plan_tables m o T).
  - left. rewrite Eb. split; reflexivity.
  - intros l1 l l2 ws1 El Ews.
    assert (Nk : nth_error (m_layers m) (List.length l1) = Some l) by (rewrite El, nth_error_app2, Nat.sub_diag by lia; reflexivity).
    assert (Wa : witness_after m input (List.length l1) = Some ws1).
    { unfold witness_after. rewrite Ex. cbn [obind]. rewrite El, firstn_app, Nat.sub_diag, firstn_all. cbn [firstn]. rewrite app_nil_r. exact Ews. }
    assert (Wc : forall y, computed m input (List.length l1) y = hget (w_tensors ws1) y) by (intros y; unfold computed; now rewrite Wa).
    split.
    + intros Eop y v k n wn wt Hy Hv Hwn Hwt Hd. destruct wt as (shape, data). cbn [fst] in Hd. unfold gemm_dims in Hd.
      destruct shape as [|rows [|cols rest]]; try discriminate. cbn in Hd. injection Hd as Hd.
      rewrite (HSd _ _ y wn rows cols rest data v Nk Eop Hy Hwn Hwt); [|now rewrite Wc].
      unfold dense_dims. destruct (l_transB l); injection Hd as <- <-; reflexivity.
    + intros Eop. destruct (HSo _ _ Nk Eop) as (HR & HS). split; [exact HR|]. intros get a c va vc Ea Ec Ga Gc.
      apply (HS a c va vc Ea Ec); unfold operand; rewrite Wc; [exact Ga|exact Gc].
  - intros y. rewrite Eb. cbn [ws0 w_tensors b_nodes b_nv s0 ps_sizes hget]. destruct (String.eqb x y); [|auto].
    split.
    + unfold padded, pad_to_size. apply Forall_app. split; apply Forall_forall.
      * intros v Hv. apply Hin. rewrite <- (firstn_skipn (pow2_for (List.length input)) input). apply in_or_app. now left.
      * intros v Hv. apply repeat_spec in Hv. subst v. unfold i64. lia.
    + exists (NShred (SInput x) (nvars (pow2_for (List.length input)))), (nvars (pow2_for (List.length input))).
      rewrite nvars_pow2. do 4 (split; [auto|]). apply shred_eval; [|now rewrite nvars_pow2].
      unfold wenv. pose proof (Mbf _ ini) as Hm. cbn [fst] in Hm. destruct (sget man (SInput x)); [exact WI|congruence].
  - rewrite Eb. intros c [].
  - rewrite Eb. intros c [].
  - rewrite Eb. intros t nv0 [E|[]]. injection E as <- <-. exists padded. split; [cbn; now rewrite shred_eqb_refl|exact WI].
  - rewrite Eb. intros e [<-|[]] (n & _ & []).
  - (* the output *)
    pose proof (Trf out) as To. rewrite Efin in To. destruct To as (Ffin & outn' & nv' & O1 & O2 & O3 & O4 & O5).
    rewrite Eoutn in O1. injection O1 as <-. rewrite Env in O2. injection O2 as <-.
    (* the public shreds *)
    set (public := map (fun t => (STable t, range_table t)) T ++ (SExpected, pad_to_size final (pow2_for (List.length final))) :: ps_shreds sf).
    assert (Prep : prepare_public_shreds (apply_observed o m) input final o = Some public).
    { unfold prepare_public_shreds. change (m_base (apply_observed o m)) with (m_base m). change (m_exponent (apply_observed o m)) with (m_exponent m).
      rewrite Gb. cbn [guard obind]. change (m_inputs (apply_observed o m)) with (m_inputs m). rewrite Ex. cbn [obind].
      change (input_size_ok (apply_observed o m) x (List.length input)) with (input_size_ok m x (List.length input)). rewrite Gs. cbn [guard obind].
      change (m_layers (apply_observed o m)) with (map (obs o) (m_layers m)). change (input_layouts (apply_observed o m)) with (input_layouts m).
      fold padded. fold s0. rewrite Psf. cbn [obind]. rewrite plan_obs, Eplan. cbn [obind]. rewrite Gt. reflexivity. }
    assert (Ppad : pad_to_size final (pow2_for (List.length final)) = final) by (apply pad_same; now rewrite O4, pow2_for_2).
    pose proof (public_layers_ext _ _ _ Psf) as Xp.
    assert (TT : forall rc t nv0, In rc (b_ranges bf) -> In (STable t, (nv0, Public)) (range_shreds_of rc) -> In t T).
    { intros rc t nv0 Hrc Hin'. pose proof (Rgf rc Hrc) as Hok. destruct rc as (((s, n), tt), nn). destruct Hok as (v & ts & _ & _ & _ & Et & Hi & _).
      apply Hi. unfold range_shreds_of in Hin'. unfold width_tables in Et. destruct (tt <=? CHUNK_BITS)%nat.
      - injection Et as <-. destruct Hin' as [E|[]]. injection E as <- <-. now left.
      - inv_step Et. injection Et as <-. destruct Hin' as [E|[E|[E|[E|[]]]]]; try discriminate; injection E as <- <-; [right; now left|now left]. }
    assert (Rng : forall rc, In rc (rev (b_ranges b2)) -> In rc (b_ranges bf)) by (intros rc Hrc; apply in_rev in Hrc; exact Hrc).
    assert (Pub : forall s nv0, In (s, (nv0, Public)) man -> exists v, sget public s = Some v /\ sget W s = Some v).
    { intros s nv0 He. destruct (C2 _ He) as [He1|(rc & Hrc & He1)].
      - destruct He1 as [E|He1].
        + injection E as <- <-. exists final. split; [|exact WE]. unfold public. rewrite sget_app, sget_no_table by discriminate. cbn. now rewrite Ppad.
        + change (In (s, (nv0, Public)) (b_manifest bf)) in He1. destruct (Pbf _ _ He1) as (v & Ev & Ew). exists v. split; [|exact Ew].
          assert (Ns : (forall t, s <> STable t) /\ s <> SExpected).
          { destruct (ext_in_manifest _ _ _ _ (build_layers_ext _ _ _ _ Ebf) He1) as [He2|(n & _ & Hn)].
            - rewrite Eb in He2. destruct He2 as [E|[]]. injection E as <- <-. split; discriminate.
            - cbn [fst] in Hn. destruct s; try easy; split; discriminate. }
          destruct Ns as (Ns1 & Ns2). unfold public. rewrite sget_app, sget_no_table by auto. cbn [sget].
          rewrite shred_neq by (intros E; apply Ns2; now symmetry). exact Ev.
      - assert (Ht : exists t, s = STable t).
        { destruct rc as (((s', n), tt), nn). unfold range_shreds_of in He1. destruct (tt <=? CHUNK_BITS)%nat; cbn [In] in He1.
          - destruct He1 as [E|[]]. injection E as <- <-. eauto.
          - destruct He1 as [E|[E|[E|[E|[]]]]]; try discriminate; injection E as <- <-; eauto. }
        destruct Ht as (t & ->). assert (Hin' : In t T) by (eapply TT; eauto).
        exists (range_table t). split; [|now apply WT]. unfold public. rewrite sget_app, sget_tables by auto. reflexivity. }
    assert (Env2 : forall s, shred_env man public W s = wenv W man s).
    { intros s. unfold shred_env, wenv. destruct (sget man s) as [(nv0, [|])|] eqn:Es; try reflexivity.
      apply sget_in in Es. destruct (Pub _ _ Es) as (v & Ev & Ew). congruence. }
    assert (Ver : verify p m (mkProof final o W) input = true).
    { unfold verify, verify_with_model. cbn [pf_expected pf_observed pf_committed]. rewrite Prep, Ebc0. fold man.
      apply andb_true_intro. split; apply forallb_forall.
      - intros (s, (nv0, vis)) He. cbn [fst snd]. destruct vis; [|reflexivity]. destruct (Pub _ _ He) as (v & -> & _). reflexivity.
      - intros c Hc. rewrite (holds_ext p _ (wenv W man)) by exact Env2. destruct (C1 c Hc) as [Hc1|(rc & Hrc & Hc1)].
        + destruct Hc1 as [<-|Hc1]; [|now apply Ckf].
          destruct (zip_with_some Z.sub final final eq_refl) as (d & Ed). destruct (zip_with_inv _ _ _ _ Ed) as (_ & Ld & Ad).
          apply holds_zero_intro with d; [|intros i Hi; rewrite Ad by lia; lia].
          cbn [eval_sector]. rewrite O5, (shred_eval _ SExpected nv final); [exact Ed| |exact O4].
          unfold wenv. assert (Hm : sget man SExpected <> None) by (apply (in_sget _ _ (nv, Public)); apply C3; now left).
          destruct (sget man SExpected); [exact WE|congruence].
        + pose proof (range_ok_holds p W man T WT rc (Rgf rc (Rng rc Hrc))) as Q. destruct rc as (((s, n), tt), nn).
          apply Q; [| |exact Hc1].
          * intros t' Ht'. assert (Hs : exists v, In (STable t', v) (range_shreds_of (s, n, tt, nn))).
            { unfold range_shreds_of. destruct (tt <=? CHUNK_BITS)%nat; [subst; eexists; now left|]. destruct Ht' as [->| ->]; eexists; [right; now left|now left]. }
            destruct Hs as (v & Hs). apply (in_sget _ _ v). now apply (C4 (s, n, tt, nn)).
          * intros Hl. assert (Hs : forall h, In (SChunk h s, (nn, Committed)) (range_shreds_of (s, n, tt, nn))).
            { unfold range_shreds_of. destruct (Nat.leb_spec tt CHUNK_BITS); [lia|]. intros [|]; cbn; auto. }
            split; (eapply in_sget; apply (C4 (s, n, tt, nn)); [exact Hrc|apply Hs]). }
    assert (Pk : forall k, exists wk bk sk, witness_after m input k = Some wk /\ state_after m (mkProof final o W) input k = Some bk /\ tracked W man wk bk sk).
    { intros k. rewrite <- (firstn_skipn k (m_layers m)) in Ewt, Ebf. rewrite map_app in Ebf.
      rewrite for_each_app in Ewt. apply obind_some in Ewt. destruct Ewt as (wk & Ek & _).
      rewrite build_layers_app in Ebf. apply obind_some in Ebf. destruct Ebf as (bk & Ebk & _).
      destruct (Pre (firstn k (m_layers m)) (skipn k (m_layers m)) wk bk) as (sk & Tk); auto; [now rewrite firstn_skipn|].
      exists wk, bk, sk. split; [unfold witness_after; rewrite Ex; exact Ek|]. split; [|exact Tk].
      unfold state_after. cbn [pf_observed]. rewrite Eb0. cbn [obind]. change (m_layers (apply_observed o m)) with (map (obs o) (m_layers m)).
      rewrite firstn_map. exact Ebk. }
    split; [exact Ver|]. split; [reflexivity|]. split; [|split].
    + intros out' E. injection E as <-. cbn [pf_expected].
      unfold computed, witness_after. rewrite Ex. cbn [obind]. rewrite firstn_all. fold padded. fold ws0. rewrite Ewt. exact Efin.
    + intros k y. destruct (Pk k) as (wk & bk & sk & Ek & Ebk & Tk). unfold tensor_value, computed, circuit_env. rewrite Ek, Ebk.
      cbn [pf_observed pf_expected pf_committed]. rewrite Prep, Ebc0. cbn [obind]. fold man. specialize (Tk y).
      destruct (hget (w_tensors wk) y) as [v|].
      * destruct Tk as (_ & n & nv0 & T1 & _ & _ & _ & T5). rewrite T1. cbn [obind]. rewrite (eval_node_ext _ (wenv W man)) by exact Env2. exact T5.
      * destruct Tk as (-> & _). reflexivity.
    + intros k y v. destruct (Pk k) as (wk & bk & sk & Ek & Ebk & Tk). unfold computed. rewrite Ek. cbn [obind]. intros Ev. specialize (Tk y). rewrite Ev in Tk. apply Tk.
Qed.
