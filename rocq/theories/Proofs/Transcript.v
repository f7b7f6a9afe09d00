From Coq Require Import List ZArith Bool Arith Lia.
From Verif Require Import Base.Array Model.Transcript Spec.Transcript.
Import ListNotations.
Local Open Scope list_scope.

Local Opaque PCS_DIGEST_LOOP.
Section T.
Variables (H : bytes -> bytes) (D : nat).
Hypotheses (HD : 0 < D) (HH : forall x, length (H x) = D).
Local Notation step := (step H D).
Local Notation run := (run H D).
Local Notation new := (new D).

Definition pend (t : transcript) : bytes := skipn (start t) (proof t).
Fixpoint inputs (d : bytes) (l : list bytes) : list bytes := match l with [] => [] | s :: r => (d ++ s) :: inputs (H (d ++ s)) r end.
Lemma chain_app d a b : chain H d (a ++ b) = chain H (chain H d a) b.
Proof. apply fold_left_app. Qed.
Lemma inputs_app a : forall d b, inputs d (a ++ b) = inputs d a ++ inputs (chain H d a) b.
Proof. induction a as [|s a IH]; intros d b; [reflexivity|]. cbn. now rewrite IH. Qed.
Lemma chain_length l : forall d, length d = D -> length (chain H d l) = D.
Proof. induction l as [|s l IH]; intros d E; [exact E|]. cbn. now apply IH. Qed.
Lemma inputs_length l : forall d, length (inputs d l) = length l.
Proof. induction l; intros d; cbn; auto. Qed.

Definition wf (t : transcript) : Prop := start t <= length (proof t) /\ length (digest t) = D /\ (locked t = true -> locked_at t <= length (proof t)).
Lemma wf_new : wf new.
Proof. unfold wf. cbn. rewrite repeat_length. repeat split; auto. Qed.
Lemma refresh_spec t : wf t -> let t' := refresh H t in
  digest t' = H (digest t ++ pend t) /\ pend t' = [] /\ queries t' = queries t ++ [digest t ++ pend t] /\ wf t' /\
  proof t' = proof t /\ locked t' = locked t /\ locked_at t' = locked_at t.
Proof.
  intros (W1 & W2 & W3). unfold refresh, pend, wf. cbv zeta. cbn [digest proof start queries locked locked_at]. destruct (Nat.ltb_spec (start t) (length (proof t))) as [L|L].
  - rewrite (skipn_all (proof t)). repeat split; auto.
  - assert (E : skipn (start t) (proof t) = []) by (apply skipn_all2; lia). rewrite E, app_nil_r. repeat split; auto.
Qed.
Lemma step_app ops : forall D0 p r, absorbed D0 p (ops ++ r) = absorbed D0 p ops ++ absorbed D0 (left_over p ops) r.
Proof.
  induction ops as [|o ops IH]; intros D0 p r; [reflexivity|]. destruct o as [b|b|[|n]| | |]; cbn [app absorbed left_over]; rewrite ?IH; auto.
  - cbn [app]. now rewrite <- app_assoc.
  - destruct p; auto.
Qed.
Lemma generate_spec fuel : forall t n, wf t -> n <= fuel -> forall t' out, generate H D fuel t n = (t', out) ->
  let l := absorbed D (pend t) [Sample n] in
  digest t' = chain H (digest t) l /\ pend t' = left_over (pend t) [Sample n] /\ queries t' = queries t ++ inputs (digest t) l /\ wf t' /\
  proof t' = proof t /\ locked t' = locked t /\ locked_at t' = locked_at t /\ out = firstn n (squeeze H n (digest t) (pend t)) /\ length out = n.
Proof.
  induction fuel as [|fuel IH]; intros t n W Hn t' out E l.
  - assert (n = 0) as -> by lia. cbn in E. injection E as <- <-. cbn. rewrite app_nil_r. tauto.
  - destruct n as [|n]; [cbn in E; injection E as <- <-; cbn; rewrite app_nil_r; tauto|]. cbn [generate] in E.
    destruct (generate H D fuel (refresh H t) (S n - Nat.min D (S n))) as (t1, r) eqn:G. assert (t' = t1 /\ out = firstn (Nat.min D (S n)) (digest (refresh H t)) ++ r) as (-> & ->) by (split; congruence). clear E. rename t1 into t'.
    destruct (refresh_spec t W) as (R1 & R2 & R3 & R4 & R5 & R6 & R7). specialize (IH (refresh H t) (S n - Nat.min D (S n)) R4 ltac:(lia) t' r G).
    cbv zeta in IH. destruct IH as (I1 & I2 & I3 & I4 & I5 & I6 & I7 & I8 & I9). rewrite R1, R2 in *.
    assert (Seg : l = pend t :: absorbed D [] [Sample (S n - Nat.min D (S n))]).
    { unfold l. cbn [absorbed]. rewrite app_nil_r. f_equal. destruct (Nat.le_gt_cases (S n) D) as [L|L].
      - rewrite Nat.min_r by lia. rewrite Nat.sub_diag. cbn [absorbed]. rewrite Nat.div_small by lia. reflexivity.
      - rewrite Nat.min_l by lia. destruct (S n - D) as [|m] eqn:Em; [lia|]. cbn [absorbed]. rewrite app_nil_r.
        replace (S n - 1) with (m + 1 * D) by lia. rewrite Nat.div_add by lia. replace (S m - 1) with m by lia. rewrite Nat.add_comm. reflexivity. }
    rewrite Seg. rewrite I1, I3, R3. split; [reflexivity|]. split.
    { rewrite I2. cbn [left_over]. destruct (S n - Nat.min D (S n)); reflexivity. }
    split; [cbn [inputs]; now rewrite <- app_assoc|]. split; auto. rewrite I5, I6, I7, R5, R6, R7. repeat split; auto.
    + assert (Ld : length (digest (refresh H t)) = D) by (rewrite R1; auto). cbn [squeeze].
      rewrite I8. destruct (Nat.le_gt_cases (S n) D) as [L|L].
      * rewrite Nat.min_r by lia. rewrite Nat.sub_diag, firstn_O, app_nil_r, firstn_app, HH. replace (S n - D) with 0 by lia. now rewrite firstn_O, app_nil_r.
      * rewrite Nat.min_l by lia. rewrite firstn_app, HH. rewrite (firstn_all2 (n := D)) by (rewrite HH; auto). rewrite (firstn_all2 (n := S n)) by (rewrite HH; lia). f_equal.
        (* squeezing more than needed *)
        assert (More : forall a b d, a <= b -> forall k, k <= a * D -> firstn k (squeeze H a d []) = firstn k (squeeze H b d [])).
        { induction a as [|a IHa]; intros b d Hb k Hk; [assert (k = 0) as -> by lia; reflexivity|]. destruct b as [|b]; [lia|]. cbn [squeeze].
          rewrite !firstn_app, HH. f_equal. apply IHa; lia. }
        apply More; [lia|]. nia.
    + rewrite app_length, I9, firstn_length. rewrite HH. lia.
Qed.
Lemma unlock_spec t t' : wf t -> unlock H t = Some t' -> let l := absorbed D (pend t) [Unlock] in
  locked t = true /\ digest t' = chain H (digest t) l /\ pend t' = [] /\ queries t' = queries t ++ inputs (digest t) l /\ wf t' /\ proof t' = firstn (locked_at t) (proof t) /\ locked t' = false.
Proof.
  intros W E l. unfold unlock in E. destruct (locked t) eqn:L; [|discriminate]. destruct (refresh_spec t W) as (R1 & R2 & R3 & R4 & R5 & R6 & R7). destruct W as (W1 & W2 & W3). specialize (W3 L).
  assert (Case : (start t < length (proof t) /\ pend t <> []) \/ (length (proof t) <= start t /\ pend t = [])).
  { unfold pend. destruct (Nat.lt_ge_cases (start t) (length (proof t))) as [A|A]; [left|right]; split; auto.
    - intros Q. apply (f_equal (@length Z)) in Q. rewrite skipn_length in Q. cbn in Q. lia.
    - apply skipn_all2. lia. }
  assert (Pad : forall p k, k <= length p -> firstn k p ++ repeat 0%Z (k - length p) = firstn k p).
  { intros p k Hk. replace (k - length p) with 0 by lia. apply app_nil_r. }
  destruct Case as [(A & P)|(A & P)].
  - assert (l = [pend t]) as -> by (unfold l; cbn; destruct (pend t); [tauto|reflexivity]).
    apply Nat.ltb_lt in A. rewrite A in E. rewrite R5, R7, Pad in E by auto. apply (f_equal (fun o => match o with Some x => x | None => t end)) in E. subst t'. unfold pend, wf. cbn [digest proof start queries locked locked_at chain fold_left inputs]. rewrite skipn_all, R1, R3. repeat split; auto; try discriminate. 
  - assert (l = []) as -> by (unfold l; cbn; rewrite P; reflexivity).
    apply Nat.ltb_ge in A. rewrite A in E. rewrite Pad in E by auto. apply (f_equal (fun o => match o with Some x => x | None => t end)) in E. subst t'. unfold pend, wf. cbn [digest proof start queries locked locked_at chain fold_left inputs]. rewrite skipn_all, app_nil_r. repeat split; auto; try discriminate.
Qed.
Lemma step_spec t o t' out : wf t -> (forall b, o <> Commit b) -> step t o = Some (t', out) -> let l := absorbed D (pend t) [o] in
  digest t' = chain H (digest t) l /\ pend t' = left_over (pend t) [o] /\ queries t' = queries t ++ inputs (digest t) l /\ wf t' /\
  out = match o with Sample n => firstn n (squeeze H n (digest t) (pend t)) | _ => [] end.
Proof.
  intros W NC E l. destruct o as [b|b|n| | |]; cbn [Transcript.step] in E.
  - injection E as <- <-. cbn. rewrite app_nil_r. split; auto. split; [|split; auto].
    + unfold pend. cbn. destruct W as (W1 & _). rewrite skipn_app. replace (start t - length (proof t)) with 0 by lia. reflexivity.
    + split; auto. destruct W as (W1 & W2 & W3). unfold wf. cbn. rewrite app_length. repeat split; auto; try lia. intros L. specialize (W3 L). lia.
  - exfalso. now apply (NC b).
  - injection E as E. destruct (generate_spec n t n W (le_n n) t' out E) as (A & B & C & G & _ & _ & _ & I & _). auto.
  - destruct (refresh_spec t W) as (R1 & R2 & R3 & R4 & R5 & R6 & R7). unfold set_state in E. destruct (length (digest (refresh H t)) =? D) eqn:L; [|discriminate].
    cbn [obind] in E. apply (f_equal (fun o => match o with Some x => x | None => (t, []) end)) in E. apply pair_equal_spec in E as (<- & <-). unfold pend in *. cbn [digest proof start queries locked locked_at]. rewrite R5, skipn_all. split; [rewrite R1; reflexivity|]. split; auto. split; [rewrite R3; reflexivity|]. split; auto.
    destruct R4 as (_ & R4 & R4'). unfold wf. cbn [digest proof start queries locked locked_at]. rewrite R5 in *. repeat split; auto. 
  - unfold lock in E. destruct (locked t) eqn:L; [discriminate|]. cbn [obind] in E. injection E as <- <-. unfold pend, wf in *. cbn. rewrite app_nil_r. destruct W as (W1 & W2 & W3). repeat split; auto.
  - destruct (unlock H t) as [t1|] eqn:U; [|discriminate]. cbn [obind] in E. injection E as <- <-. destruct (unlock_spec t t1 W U) as (_ & A & B & C & G & _). auto.
Qed.
Lemma run_spec ops : forall t t' outs, wf t -> no_commit ops -> run t ops = Some (t', outs) ->
  digest t' = chain H (digest t) (absorbed D (pend t) ops) /\ pend t' = left_over (pend t) ops /\
  queries t' = queries t ++ inputs (digest t) (absorbed D (pend t) ops) /\ wf t' /\ outs = sampled H D (digest t) (pend t) ops.
Proof.
  induction ops as [|o ops IH]; intros t t' outs W NC E; cbn [Transcript.run] in E.
  - injection E as <- <-. cbn. rewrite app_nil_r. auto.
  - destruct (step t o) as [(t1, out)|] eqn:S1; [|discriminate]. cbn [obind fst snd] in E. destruct (run t1 ops) as [(t2, outs')|] eqn:S2; [|discriminate]. cbn [obind fst snd] in E. injection E as -> <-.
    assert (NO : forall b, o <> Commit b) by (intros b ->; apply (NC b); now left). assert (NC' : no_commit ops) by (intros b I; apply (NC b); now right).
    destruct (step_spec t o t1 out W NO S1) as (A1 & A2 & A3 & A4 & A5). destruct (IH t1 t' outs' A4 NC' S2) as (B1 & B2 & B3 & B4 & B5).
    rewrite A1, A2 in *. change (o :: ops) with ([o] ++ ops). rewrite step_app, chain_app, inputs_app, B1, B3, A3, <- app_assoc.
    split; auto. split; [|split; auto; split; auto].
    + rewrite B2. clear. generalize (pend t). intros p. destruct o as [b|b|[|n]| | |]; reflexivity.
    + cbn [sampled]. now rewrite A5, B5.
Qed.
(** ** Binding *)
Lemma bytes_dec (x y : bytes) : x = y \/ x <> y.
Proof. destruct (list_eq_dec Z.eq_dec x y); auto. Qed.
Lemma collision_incl q q' : incl q q' -> collision H q -> collision H q'.
Proof. intros I (x & y & A & B & C). exists x, y. auto. Qed.
Lemma app_same (a b c d : bytes) : length a = length c -> a ++ b = c ++ d -> a = c /\ b = d.
Proof. revert c. induction a as [|x a IH]; intros [|y c] L E; try discriminate; [auto|]. injection L as L. injection E as -> E. destruct (IH c L E) as (-> & ->). auto. Qed.
Lemma last_split {A} (l : list A) : l = [] \/ exists l' x, l = l' ++ [x].
Proof. destruct l as [|a l] using rev_ind; eauto. Qed.
Lemma chain_inj l1 : forall l2 d1 d2, length l1 = length l2 -> length d1 = D -> length d2 = D -> chain H d1 l1 = chain H d2 l2 ->
  (d1 = d2 /\ l1 = l2) \/ collision H (inputs d1 l1 ++ inputs d2 l2).
Proof.
  induction l1 as [|s1 l1 IH] using rev_ind; intros l2 d1 d2 L L1 L2 E.
  - destruct l2; [|discriminate]. auto.
  - destruct (last_split l2) as [-> |(l2' & s2 & ->)]; [rewrite app_length in L; cbn in L; lia|]. rewrite !app_length in L. cbn in L.
    rewrite !chain_app in E. cbn in E. rewrite !inputs_app. cbn [inputs].
    destruct (bytes_dec (chain H d1 l1 ++ s1) (chain H d2 l2' ++ s2)) as [Q|N].
    + apply app_same in Q as (Q & ->); [|rewrite !chain_length by auto; auto]. destruct (IH l2' d1 d2 ltac:(lia) L1 L2 Q) as [(-> & ->)|C]; [auto|]. right.
      revert C. apply collision_incl. intros x I. rewrite !in_app_iff in *. tauto.
    + right. exists (chain H d1 l1 ++ s1), (chain H d2 l2' ++ s2). rewrite !in_app_iff. cbn. auto 10.
Qed.
Lemma chain_inj_any l1 : forall l2 d, length d = D -> chain H d l1 = chain H d l2 ->
  l1 = l2 \/ collision H (inputs d l1 ++ inputs d l2) \/ exists x, In x (inputs d l1 ++ inputs d l2) /\ H x = d.
Proof.
  induction l1 as [|s1 l1 IH] using rev_ind; intros l2 d L E.
  - destruct (last_split l2) as [-> |(l2' & s2 & ->)]; [auto|]. right. right. rewrite chain_app in E. cbn in E. exists (chain H d l2' ++ s2). split; auto.
    rewrite inputs_app, !in_app_iff. cbn. auto.
  - destruct (last_split l2) as [-> |(l2' & s2 & ->)].
    + right. right. rewrite chain_app in E. cbn in E. exists (chain H d l1 ++ s1). split; auto. rewrite inputs_app, !in_app_iff. cbn. auto.
    + rewrite !chain_app in E. cbn in E. rewrite !inputs_app. cbn [inputs].
      destruct (bytes_dec (chain H d l1 ++ s1) (chain H d l2' ++ s2)) as [Q|N].
      * apply app_same in Q as (Q & ->); [|rewrite !chain_length by auto; auto]. destruct (IH l2' d L Q) as [-> |[C|(x & I & X)]]; [auto| |].
        -- right. left. revert C. apply collision_incl. intros x I. rewrite !in_app_iff in *. tauto.
        -- right. right. exists x. split; auto. rewrite !in_app_iff in *. tauto.
      * right. left. exists (chain H d l1 ++ s1), (chain H d l2' ++ s2). rewrite !in_app_iff. cbn. auto 10.
Qed.
Lemma new_pend : pend new = []. Proof. reflexivity. Qed.
Lemma refines ops t outs : no_commit ops -> run new ops = Some (t, outs) ->
  digest t = chain H (repeat 0%Z D) (absorbed D [] ops) /\ outs = sampled H D (repeat 0%Z D) [] ops /\ length (queries t) = length (absorbed D [] ops).
Proof.
  intros NC E. destruct (run_spec ops new t outs wf_new NC E) as (A & _ & C & _ & F). split; auto. split; auto. rewrite C. cbn [queries Transcript.new app]. apply inputs_length.
Qed.
Lemma nothing_lost ops : forall p, no_commit ops -> concat (absorbed D p ops) ++ left_over p ops = p ++ everything ops.
Proof.
  induction ops as [|o ops IH]; intros p NC; [cbn; now rewrite app_nil_r|]. assert (NC' : no_commit ops) by (intros b I; apply (NC b); now right).
  destruct o as [b|b|[|n]| | |]; cbn [absorbed left_over]; unfold everything; cbn [flat_map]; fold (everything ops).
  - rewrite IH by auto. now rewrite app_assoc.
  - exfalso. apply (NC b). now left.
  - now apply IH.
  - cbn [concat]. rewrite concat_app. assert (Q : forall k, concat (repeat ([] : bytes) k) = []) by (induction k; auto). rewrite Q. cbn [app]. rewrite <- app_assoc. f_equal. exact (IH [] NC').
  - cbn [concat]. rewrite <- app_assoc. f_equal. exact (IH [] NC').
  - now apply IH.
  - destruct p as [|x p]; [exact (IH [] NC')|]. cbn [concat]. rewrite <- app_assoc. f_equal. exact (IH [] NC').
Qed.
Lemma binding ops1 ops2 t1 t2 outs1 outs2 : no_commit ops1 -> no_commit ops2 -> run new ops1 = Some (t1, outs1) -> run new ops2 = Some (t2, outs2) ->
  length (queries t1) = length (queries t2) -> digest t1 = digest t2 -> absorbed D [] ops1 = absorbed D [] ops2 \/ collision H (queries t1 ++ queries t2).
Proof.
  intros N1 N2 E1 E2 L E. destruct (run_spec ops1 new t1 outs1 wf_new N1 E1) as (A1 & _ & C1 & _). destruct (run_spec ops2 new t2 outs2 wf_new N2 E2) as (A2 & _ & C2 & _).
  rewrite new_pend in *. cbn [queries Transcript.new app] in C1, C2. rewrite C1, C2 in *. rewrite !inputs_length in L. rewrite A1, A2 in E.
  destruct (chain_inj (absorbed D [] ops1) (absorbed D [] ops2) (digest new) (digest new) L) as [(_ & Q)|Q]; auto; apply repeat_length.
Qed.
Lemma binding_any ops1 ops2 t1 t2 outs1 outs2 : no_commit ops1 -> no_commit ops2 -> run new ops1 = Some (t1, outs1) -> run new ops2 = Some (t2, outs2) ->
  digest t1 = digest t2 -> absorbed D [] ops1 = absorbed D [] ops2 \/ collision H (queries t1 ++ queries t2) \/ exists x, In x (queries t1 ++ queries t2) /\ H x = repeat 0%Z D.
Proof.
  intros N1 N2 E1 E2 E. destruct (run_spec ops1 new t1 outs1 wf_new N1 E1) as (A1 & _ & C1 & _). destruct (run_spec ops2 new t2 outs2 wf_new N2 E2) as (A2 & _ & C2 & _).
  rewrite new_pend in *. cbn [queries Transcript.new app] in C1, C2. rewrite C1, C2 in *. rewrite A1, A2 in E.
  apply (chain_inj_any (absorbed D [] ops1) (absorbed D [] ops2) (digest new)); auto; apply repeat_length.
Qed.
(** ** A commitment first *)
Lemma rehash_spec n : forall d, rehash H n d = (chain H d (repeat [] n), inputs d (repeat [] n)).
Proof. induction n as [|n IH]; intros d; [reflexivity|]. cbn [rehash repeat chain fold_left inputs]. rewrite IH, !app_nil_r. reflexivity. Qed.
Lemma commit_spec t c t' : wf t -> append_commitment H D t c = Some t' ->
  digest t' = chain H (H c) (repeat [] PCS_DIGEST_LOOP) /\ pend t' = [] /\ queries t' = queries t ++ c :: inputs (H c) (repeat [] PCS_DIGEST_LOOP) /\ wf t' /\
  proof t' = proof t ++ c /\ locked t' = locked t /\ locked_at t' = locked_at t.
Proof.
  intros (W1 & W2 & W3) E. unfold append_commitment, hash_init_commitment in E. rewrite rehash_spec in E. unfold set_state in E.
  match type of E with (if ?x then _ else _) = _ => destruct x; [|discriminate] end. apply (f_equal (fun o => match o with Some x => x | None => t end)) in E. subst t'. unfold pend, wf. cbn [digest proof start queries locked locked_at append]. rewrite skipn_all.
  split; [auto|]. split; [auto|]. split; [reflexivity|]. split; [|auto]. split; [auto|]. split.
  - now apply chain_length.
  - intros L. specialize (W3 L). rewrite app_length. lia.
Qed.
Lemma commit_total t c : exists t', append_commitment H D t c = Some t'.
Proof.
  unfold append_commitment, hash_init_commitment. rewrite rehash_spec. unfold set_state. rewrite chain_length by auto. rewrite Nat.eqb_refl. eauto.
Qed.
Lemma binding_commit c1 c2 ops1 ops2 t1 t2 outs1 outs2 : no_commit ops1 -> no_commit ops2 -> run new (Commit c1 :: ops1) = Some (t1, outs1) -> run new (Commit c2 :: ops2) = Some (t2, outs2) ->
  length (queries t1) = length (queries t2) -> digest t1 = digest t2 -> (c1 = c2 /\ absorbed D [] ops1 = absorbed D [] ops2) \/ collision H (queries t1 ++ queries t2).
Proof.
  intros N1 N2 E1 E2 L E. cbn [Transcript.run Transcript.step] in E1, E2.
  destruct (append_commitment H D new c1) as [s1|] eqn:K1; [|discriminate]. destruct (append_commitment H D new c2) as [s2|] eqn:K2; [|discriminate]. cbn [obind fst snd] in E1, E2.
  destruct (run s1 ops1) as [(u1, o1)|] eqn:F1; [|discriminate]. destruct (run s2 ops2) as [(u2, o2)|] eqn:F2; [|discriminate]. cbn [obind fst snd] in E1, E2. injection E1 as -> <-. injection E2 as -> <-.
  destruct (commit_spec new c1 s1 wf_new K1) as (A1 & B1 & C1 & W1 & _). destruct (commit_spec new c2 s2 wf_new K2) as (A2 & B2 & C2 & W2 & _).
  destruct (run_spec ops1 s1 t1 o1 W1 N1 F1) as (P1 & _ & Q1 & _). destruct (run_spec ops2 s2 t2 o2 W2 N2 F2) as (P2 & _ & Q2 & _).
  rewrite A1, B1 in *. rewrite A2, B2 in *. cbn [queries Transcript.new app] in C1, C2. rewrite C1 in Q1. rewrite C2 in Q2.
  rewrite <- chain_app in P1, P2. cbn [app] in Q1, Q2. rewrite <- inputs_app in Q1, Q2. rewrite Q1, Q2 in *. cbn [length] in L. rewrite !inputs_length in L. rewrite P1, P2 in E.
  destruct (chain_inj _ _ (H c1) (H c2) (eq_add_S _ _ L) (HH c1) (HH c2) E) as [(Qc & Ql)|C].
  - destruct (bytes_dec c1 c2) as [-> |N].
    + left. split; auto. now apply app_inv_head in Ql.
    + right. exists c1, c2. rewrite in_app_iff. cbn [In]. rewrite in_app_iff. cbn [In]. auto 10.
  - right. revert C. apply collision_incl. intros x I. rewrite in_app_iff in *. cbn [In]. tauto.
Qed.
(** ** Forgetting *)
Definition alike (a b : transcript) : Prop := wf a /\ wf b /\ digest a = digest b /\ pend a = pend b /\ locked a = locked b.
Lemma step_alike a b o : alike a b -> match step a o, step b o with
  | Some (a', x), Some (b', y) => alike a' b' /\ x = y | None, None => True | _, _ => False end.
Proof.
  intros (Wa & Wb & Ed & Ep & El).
  assert (Both : forall o, (forall c, o <> Commit c) -> forall a' x b' y, step a o = Some (a', x) -> step b o = Some (b', y) -> locked a' = locked b' -> alike a' b' /\ x = y).
  { clear o. intros o NC a' x b' y Sa Sb L. destruct (step_spec a o a' x Wa NC Sa) as (A1 & A2 & _ & A4 & A5). destruct (step_spec b o b' y Wb NC Sb) as (B1 & B2 & _ & B4 & B5).
    rewrite Ed, Ep in *. split; [|congruence]. split; [auto|]. split; [auto|]. split; [congruence|]. split; congruence. }
  destruct o as [c|c|n| | |].
  - apply (Both (Append c)); try discriminate; try reflexivity. exact El.
  - cbn [Transcript.step]. destruct (commit_total a c) as (a' & Ka). destruct (commit_total b c) as (b' & Kb). rewrite Ka, Kb. cbn [obind].
    destruct (commit_spec a c a' Wa Ka) as (A1 & A2 & _ & A4 & _ & A6 & _). destruct (commit_spec b c b' Wb Kb) as (B1 & B2 & _ & B4 & _ & B6 & _). split; auto.
    split; [auto|]. split; [auto|]. split; [congruence|]. split; congruence.
  - cbn [Transcript.step]. destruct (generate H D n a n) as (a', x) eqn:Sa. destruct (generate H D n b n) as (b', y) eqn:Sb.
    apply (Both (Sample n)); try discriminate; [now cbn [Transcript.step]; rewrite Sa|now cbn [Transcript.step]; rewrite Sb|].
    destruct (generate_spec n a n Wa (le_n n) a' x Sa) as (_ & _ & _ & _ & _ & La & _). destruct (generate_spec n b n Wb (le_n n) b' y Sb) as (_ & _ & _ & _ & _ & Lb & _). congruence.
  - destruct (refresh_spec a Wa) as (A1 & _ & _ & _ & _ & A6 & _). destruct (refresh_spec b Wb) as (B1 & _ & _ & _ & _ & B6 & _).
    destruct (step a Sync) as [(a', x)|] eqn:Sa; destruct (step b Sync) as [(b', y)|] eqn:Sb; auto.
    + apply (Both Sync ltac:(discriminate) a' x b' y Sa Sb). cbn [Transcript.step] in Sa, Sb. unfold set_state in Sa, Sb. rewrite A1 in Sa. rewrite B1 in Sb. rewrite HH, Nat.eqb_refl in Sa, Sb. cbn [obind] in Sa, Sb.
      injection Sa as <- _. injection Sb as <- _. exact El.
    + cbn [Transcript.step] in Sb. unfold set_state in Sb. rewrite B1, HH, Nat.eqb_refl in Sb. discriminate.
    + cbn [Transcript.step] in Sa. unfold set_state in Sa. rewrite A1, HH, Nat.eqb_refl in Sa. discriminate.
  - cbn [Transcript.step]. unfold lock. rewrite El. destruct (locked b) eqn:Lb; cbn [obind]; auto. split; auto. clear Both. unfold alike, wf, pend in *. cbn. intuition.
  - cbn [Transcript.step]. destruct (unlock H a) as [a'|] eqn:Ua; destruct (unlock H b) as [b'|] eqn:Ub; cbn [obind]; auto.
    + destruct (unlock_spec a a' Wa Ua) as (_ & A1 & A2 & _ & A4 & _ & A5). destruct (unlock_spec b b' Wb Ub) as (_ & B1 & B2 & _ & B4 & _ & B5). rewrite Ed, Ep in *. split; auto.
      split; [auto|]. split; [auto|]. split; [congruence|]. split; congruence.
    + unfold unlock in *. rewrite El in Ua. destruct (locked b); discriminate.
    + unfold unlock in *. rewrite <- El in Ub. destruct (locked a); discriminate.
Qed.
Lemma run_alike ops : forall a b, alike a b -> match run a ops, run b ops with
  | Some (a', x), Some (b', y) => alike a' b' /\ x = y | None, None => True | _, _ => False end.
Proof.
  induction ops as [|o ops IH]; intros a b A; cbn [Transcript.run]; [auto|]. pose proof (step_alike a b o A) as S.
  destruct (step a o) as [(a1, x)|]; destruct (step b o) as [(b1, y)|]; try contradiction; cbn [obind fst snd]; auto. destruct S as (A1 & ->). specialize (IH a1 b1 A1).
  destruct (run a1 ops) as [(a2, xs)|]; destruct (run b1 ops) as [(b2, ys)|]; try contradiction; cbn [obind fst snd]; auto. destruct IH as (A2 & ->). auto.
Qed.
Lemma step_wf t o t' out : wf t -> step t o = Some (t', out) -> wf t'.
Proof.
  intros W E. assert (K : (forall c, o <> Commit c) -> wf t') by (intros NC; exact (proj1 (proj2 (proj2 (proj2 (step_spec t o t' out W NC E)))))).
  destruct o as [c|c|n| | |]; try (apply K; discriminate). clear K. cbn [Transcript.step] in E. destruct (append_commitment H D t c) as [t1|] eqn:K; [|discriminate]. cbn [obind] in E. injection E as <- <-. apply (commit_spec t c t1 W K).
Qed.
Lemma run_wf ops : forall t t' outs, wf t -> run t ops = Some (t', outs) -> wf t'.
Proof.
  induction ops as [|o ops IH]; intros t t' outs W E; cbn [Transcript.run] in E; [injection E as <- <-; auto|].
  destruct (step t o) as [(t1, out)|] eqn:S1; [|discriminate]. cbn [obind fst snd] in E. destruct (run t1 ops) as [(t2, outs')|] eqn:S2; [|discriminate]. cbn [obind fst snd] in E. injection E as -> <-.
  apply (IH t1 t' outs'); auto. now apply (step_wf t o t1 out).
Qed.
Lemma run_app a : forall t b, run t (a ++ b) = let* x := run t a in let* y := run (fst x) b in Some (fst y, snd x ++ snd y).
Proof.
  induction a as [|o a IH]; intros t b; cbn [app Transcript.run].
  - cbn [obind fst snd]. destruct (run t b) as [(u, x)|]; reflexivity.
  - destruct (step t o) as [(t1, out)|]; [|reflexivity]. cbn [obind fst snd]. rewrite IH. destruct (run t1 a) as [(t2, outs)|]; [|reflexivity]. cbn [obind fst snd].
    destruct (run t2 b) as [(t3, outs')|]; reflexivity.
Qed.
Lemma forgets before1 before2 t1 t2 outs1 outs2 c after : run new before1 = Some (t1, outs1) -> run new before2 = Some (t2, outs2) -> locked t1 = locked t2 ->
  forall u1 res1, run t1 (Commit c :: after) = Some (u1, res1) -> exists u2, run t2 (Commit c :: after) = Some (u2, res1) /\ digest u2 = digest u1.
Proof.
  intros E1 E2 L u1 res1 R. pose proof (run_wf _ _ _ _ wf_new E1) as W1. pose proof (run_wf _ _ _ _ wf_new E2) as W2.
  cbn [Transcript.run Transcript.step] in *. destruct (commit_total t1 c) as (s1 & K1). destruct (commit_total t2 c) as (s2 & K2). rewrite K1 in R. rewrite K2. cbn [obind fst snd] in *.
  destruct (commit_spec t1 c s1 W1 K1) as (A1 & A2 & _ & A4 & _ & A6 & _). destruct (commit_spec t2 c s2 W2 K2) as (B1 & B2 & _ & B4 & _ & B6 & _).
  assert (Al : alike s1 s2) by (split; [auto|]; split; [auto|]; split; [congruence|]; split; congruence).
  pose proof (run_alike after s1 s2 Al) as Q. destruct (run s1 after) as [(v1, x1)|]; [|discriminate]. destruct (run s2 after) as [(v2, x2)|]; [|contradiction]. cbn [obind fst snd] in *.
  injection R as -> <-. destruct Q as ((_ & _ & Qd & _) & ->). exists v2. auto.
Qed.
(** ** The proof *)
Definition base (t : transcript) : bytes := if locked t then firstn (locked_at t) (proof t) else proof t.
Lemma step_base t o t' out : wf t -> step t o = Some (t', out) -> base t' = base t ++ (match o with Append b | Commit b => if locked t then [] else b | _ => [] end) /\
  locked t' = match o with Lock => true | Unlock => false | _ => locked t end.
Proof.
  intros W E. unfold base. destruct o as [b|b|n| | |]; cbn [Transcript.step] in E.
  - injection E as <- <-. cbn. destruct W as (_ & _ & W3). destruct (locked t) eqn:L; auto. split; auto. specialize (W3 eq_refl). rewrite firstn_app. replace (locked_at t - length (proof t)) with 0 by lia. reflexivity.
  - destruct (append_commitment H D t b) as [t1|] eqn:K; [|discriminate]. cbn [obind] in E. injection E as <- <-. destruct (commit_spec t b t1 W K) as (_ & _ & _ & _ & P & L & A). rewrite P, L, A. destruct W as (_ & _ & W3).
    destruct (locked t); auto. split; auto. specialize (W3 eq_refl). rewrite firstn_app. replace (locked_at t - length (proof t)) with 0 by lia. reflexivity.
  - injection E as E. destruct (generate_spec n t n W (le_n n) t' out E) as (_ & _ & _ & _ & P & L & A & _). rewrite P, L, A, app_nil_r. auto.
  - destruct (refresh_spec t W) as (_ & _ & _ & _ & R5 & R6 & R7). unfold set_state in E. destruct (length (digest (refresh H t)) =? D); [|discriminate]. cbn [obind] in E. apply (f_equal (fun o => match o with Some x => x | None => (t, []) end)) in E. apply pair_equal_spec in E as (<- & <-). cbn [locked proof locked_at]. rewrite R5, R6, R7, app_nil_r. auto.
  - unfold lock in E. destruct (locked t) eqn:L; [discriminate|]. cbn [obind] in E. injection E as <- <-. cbn. rewrite firstn_all, app_nil_r. auto.
  - destruct (unlock H t) as [t1|] eqn:U; [|discriminate]. cbn [obind] in E. injection E as <- <-. destruct (unlock_spec t t1 W U) as (L & _ & _ & _ & _ & P & L'). rewrite L, L', P, app_nil_r. auto.
Qed.
Lemma run_base ops : forall t t' outs, wf t -> run t ops = Some (t', outs) -> base t' = base t ++ unlocked (locked t) ops.
Proof.
  induction ops as [|o ops IH]; intros t t' outs W E; cbn [Transcript.run] in E; [injection E as <- <-; cbn; now rewrite app_nil_r|].
  destruct (step t o) as [(t1, out)|] eqn:S1; [|discriminate]. cbn [obind fst snd] in E. destruct (run t1 ops) as [(t2, outs')|] eqn:S2; [|discriminate]. cbn [obind fst snd] in E. injection E as -> <-.
  rewrite (IH t1 t' outs' (step_wf _ _ _ _ W S1) S2). destruct (step_base t o t1 out W S1) as (B & L). rewrite B, L, <- app_assoc. f_equal. destruct o; reflexivity.
Qed.
Lemma finalize_spec ops t outs : run new ops = Some (t, outs) -> finalize H t = Some (unlocked false ops).
Proof.
  intros E. pose proof (run_base ops new t outs wf_new E) as B. pose proof (run_wf ops new t outs wf_new E) as W. cbn in B. unfold finalize, base in *. destruct (locked t) eqn:L.
  - destruct (unlock H t) as [t1|] eqn:U.
    + destruct (unlock_spec t t1 W U) as (_ & _ & _ & _ & _ & P & _). cbn [obind]. now rewrite P, B.
    + unfold unlock in U. rewrite L in U. discriminate.
  - now rewrite B.
Qed.
End T.

(** ** Padding *)
Section P.
Variables (S : Type) (absorb : S -> bytes -> S) (size : nat).
Hypothesis Hs : 0 < size.
Lemma chunks_spec fuel : forall s input, length input <= fuel -> exists s' r, chunks_exact S absorb size fuel s input = (s', r) /\ length r = length input mod size /\
  forall tail, length r + length tail < size -> forall fuel', length input + length tail <= fuel' -> chunks_exact S absorb size fuel' s (input ++ tail) = (s', r ++ tail).
Proof.
  induction fuel as [|fuel IH]; intros s input L; cbn [chunks_exact].
  - assert (input = []) as -> by (destruct input; cbn in L; [auto|lia]). exists s, []. cbn [length app]. split; auto. split; [now rewrite Nat.mod_0_l by lia|]. intros tail Ht fuel' Hf.
    destruct fuel'; cbn [chunks_exact]; auto. replace (length tail <? size) with true by (symmetry; apply Nat.ltb_lt; cbn in Ht; lia). reflexivity.
  - destruct (Nat.ltb_spec (length input) size) as [Lt|Ge].
    + exists s, input. split; auto. split; [now rewrite Nat.mod_small|]. intros tail Ht fuel' Hf. destruct fuel'; cbn [chunks_exact]; auto.
      rewrite app_length. replace (length input + length tail <? size) with true by (symmetry; apply Nat.ltb_lt; lia). reflexivity.
    + destruct (IH (absorb s (firstn size input)) (skipn size input)) as (s' & r & E & Lr & T); [rewrite skipn_length; lia|].
      exists s', r. split; auto. rewrite skipn_length in *. split.
      * rewrite Lr. replace (length input) with (length input - size + 1 * size) at 2 by lia. now rewrite Nat.mod_add by lia.
      * intros tail Ht fuel' Hf. destruct fuel' as [|fuel']; [lia|]. cbn [chunks_exact]. rewrite app_length. replace (length input + length tail <? size) with false by (symmetry; apply Nat.ltb_ge; lia).
        rewrite firstn_app. replace (size - length input) with 0 by lia. cbn [firstn]. rewrite app_nil_r. rewrite skipn_app. replace (size - length input) with 0 by lia. cbn [skipn]. apply T; lia.
Qed.
(** zeros at the end of an incomplete chunk do not count *)
Lemma pad_collision init input k : length input mod size <> 0 -> length input mod size + k < size ->
  hash_to_state S absorb size init (input ++ repeat 0%Z k) = hash_to_state S absorb size init input.
Proof.
  intros N Hk. unfold hash_to_state. destruct (chunks_spec (length input) init input (le_n _)) as (s' & r & E & Lr & T). rewrite E.
  rewrite (T (repeat 0%Z k)); [|rewrite repeat_length; lia|rewrite app_length; lia]. destruct r as [|x r]; [cbn in Lr; lia|]. cbn [app].
  f_equal. change (x :: r ++ repeat 0%Z k) with ((x :: r) ++ repeat 0%Z k). rewrite <- app_assoc, <- repeat_app. cbn [app]. do 3 f_equal. cbn [length] in *. rewrite app_length, repeat_length. lia.
Qed.
End P.
