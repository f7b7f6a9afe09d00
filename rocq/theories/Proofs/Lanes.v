(** Vector evaluation of a layered circuit, lane by lane *)
From Coq Require Import List Bool Arith Lia Field.
From Verif Require Import Base.Array Base.Field Model.Layered Proofs.Layered.
From Verif.Model Require Witness.
Import ListNotations.
Local Open Scope list_scope.

Lemma aset_map {A B} (f : A -> B) l i v : aset (map f l) i (f v) = option_map (map f) (aset l i v).
Proof.
  revert i. induction l as [|a l IH]; intros [|i]; cbn; auto. rewrite IH. now destruct (aset l i v).
Qed.
Lemma slice_map {A B} (f : A -> B) l a b : slice (map f l) a b = option_map (map f) (slice l a b).
Proof.
  unfold slice, Witness.slice. rewrite map_length. destruct ((a <=? b) && (b <=? length l)); cbn; auto.
  now rewrite skipn_map, firstn_map.
Qed.
Lemma splice_map {A B} (f : A -> B) l a r : splice (map f l) a (map f r) = map f (splice l a r).
Proof. unfold splice. now rewrite !map_app, map_length, firstn_map, skipn_map. Qed.
Lemma Forall_aset {A} (P : A -> Prop) l i v l' : Forall P l -> P v -> aset l i v = Some l' -> Forall P l'.
Proof.
  revert i l'. induction l as [|a l IH]; intros [|i] l' H Hv E; cbn in E; try discriminate; inversion H; subst.
  - injection E as <-. now constructor.
  - destruct (aset l i v) eqn:Ea; [|discriminate]. injection E as <-. constructor; eauto.
Qed.
Lemma Forall_slice {A} (P : A -> Prop) l a b r : Forall P l -> slice l a b = Some r -> Forall P r.
Proof.
  intros H E. apply slice_inv in E as (_ & ->). rewrite Forall_forall in *. intros x I.
  apply H. rewrite <- (firstn_skipn a l), in_app_iff. right. rewrite <- (firstn_skipn (b - a) (skipn a l)), in_app_iff. now left.
Qed.
Lemma Forall_splice {A} (P : A -> Prop) l a r : Forall P l -> Forall P r -> Forall P (splice l a r).
Proof.
  intros H1 H2. unfold splice. rewrite !Forall_app. split; [|split; auto].
  - rewrite Forall_forall in *. intros x I. apply H1. rewrite <- (firstn_skipn a l), in_app_iff. now left.
  - rewrite Forall_forall in *. intros x I. apply H1. rewrite <- (firstn_skipn (a + length r) l), in_app_iff. now right.
Qed.

Lemma map_repeat' {A B} (f : A -> B) x n : map f (repeat x n) = repeat (f x) n.
Proof. induction n; cbn; congruence. Qed.

Section Lanes.
Variable K : field.
Variable pack : nat.
Add Field Kf : (fth K).
Hypothesis pack_pos : 0 < pack.
Variable custom : nat -> list K -> option (list K).
Hypothesis custom_uniform : forall t x y ox oy, length x = length y -> custom t x = Some ox -> custom t y = Some oy -> length ox = length oy.
Variable rnds : list K.
Hypothesis rnds_len : length rnds = pack.

Definition vec (v : list K) : Prop := length v = pack.
Definition lane (j : nat) (v : list K) : K := nth j v f0.

(** A computation on vectors against one computation per lane: it fails iff some lane fails *)
Definition sim {A B} (valid : A -> Prop) (proj : nat -> A -> B) (o : option A) (f : nat -> option B) : Prop :=
  match o with
  | Some r => valid r /\ forall j, j < pack -> f j = Some (proj j r)
  | None => exists j, j < pack /\ f j = None
  end.
Lemma sim_bind {A B C D} (v1 : A -> Prop) (p1 : nat -> A -> B) (v2 : C -> Prop) (p2 : nat -> C -> D) o f k g :
  sim v1 p1 o f -> (forall r, v1 r -> sim v2 p2 (k r) (fun j => g j (p1 j r))) -> sim v2 p2 (obind o k) (fun j => obind (f j) (g j)).
Proof.
  destruct o as [r|]; cbn.
  - intros (V & H) HK. specialize (HK r V). unfold sim in *. destruct (k r) as [q|].
    + destruct HK as (V2 & H2). split; auto. intros j Hj. rewrite H by auto. cbn. auto.
    + destruct HK as (j & Hj & E). exists j. split; auto. rewrite H by auto. exact E.
  - intros (j & Hj & E) _. exists j. rewrite E. auto.
Qed.
(** the same step in every lane *)
Lemma sim_bind_same {A C D} (v2 : C -> Prop) (p2 : nat -> C -> D) (o : option A) k g :
  (forall r, o = Some r -> sim v2 p2 (k r) (fun j => g j r)) -> sim v2 p2 (obind o k) (fun j => obind o (g j)).
Proof. destruct o as [r|]; cbn; auto. intros _. exists 0. auto. Qed.
Lemma sim_some {A B} (v : A -> Prop) (p : nat -> A -> B) r f : v r -> (forall j, j < pack -> f j = p j r) -> sim v p (Some r) (fun j => Some (f j)).
Proof. intros V H. split; auto. intros j Hj. now rewrite H. Qed.
Lemma sim_for_each {X A B} (v : A -> Prop) (p : nat -> A -> B) (F : X -> A -> option A) (f : nat -> X -> B -> option B) xs :
  (forall x s, In x xs -> v s -> sim v p (F x s) (fun j => f j x (p j s))) ->
  forall s, v s -> sim v p (for_each xs F s) (fun j => for_each xs (f j) (p j s)).
Proof.
  induction xs as [|x xs IH]; intros H s V; cbn [for_each].
  - apply sim_some; auto.
  - apply (sim_bind v p v p _ (fun j => f j x (p j s)) (for_each xs F) (fun j => for_each xs (f j))); [apply H; auto; now left|].
    intros r Vr. apply IH; auto. intros y t I. apply H. now right.
Qed.
Lemma sim_ext {A B} (v : A -> Prop) (p : nat -> A -> B) o f g : sim v p o f -> (forall j, j < pack -> f j = g j) -> sim v p o g.
Proof.
  unfold sim. destruct o as [r|].
  - intros (V & H) E. split; auto. intros j Hj. now rewrite <- E, H.
  - intros (j & Hj & H) E. exists j. now rewrite <- E.
Qed.
Lemma sim_aget {A B} (v : A -> Prop) (p : nat -> A -> B) l i : Forall v l -> sim v p (aget l i) (fun j => aget (map (p j) l) i).
Proof.
  intros H. unfold aget, sim. destruct (nth_error l i) as [x|] eqn:E.
  - split; [rewrite Forall_forall in H; eapply H, nth_error_In; eassumption|]. intros j _. now apply map_nth_error.
  - exists 0. split; auto. apply nth_error_None. apply nth_error_None in E. now rewrite map_length.
Qed.
Lemma sim_aset {A B} (v : A -> Prop) (p : nat -> A -> B) l i x : Forall v l -> v x ->
  sim (Forall v) (fun j => map (p j)) (aset l i x) (fun j => aset (map (p j) l) i (p j x)).
Proof.
  intros H Hx. unfold sim. destruct (aset l i x) as [l'|] eqn:E.
  - split; [eapply Forall_aset; eassumption|]. intros j _. rewrite aset_map, E. reflexivity.
  - exists 0. split; auto. rewrite aset_map, E. reflexivity.
Qed.
Lemma sim_slice {A B} (v : A -> Prop) (p : nat -> A -> B) l a b : Forall v l ->
  sim (Forall v) (fun j => map (p j)) (slice l a b) (fun j => slice (map (p j) l) a b).
Proof.
  intros H. unfold sim. destruct (slice l a b) as [r|] eqn:E.
  - split; [eapply Forall_slice; eassumption|]. intros j _. rewrite slice_map, E. reflexivity.
  - exists 0. split; auto. rewrite slice_map, E. reflexivity.
Qed.
Lemma sim_omap {X A B} (v : A -> Prop) (p : nat -> A -> B) (F : X -> option A) (f : nat -> X -> option B) xs :
  (forall x, In x xs -> sim v p (F x) (fun j => f j x)) -> sim (Forall v) (fun j => map (p j)) (omap F xs) (fun j => omap (f j) xs).
Proof.
  induction xs as [|x xs IH]; intros H; cbn [omap].
  - apply sim_some; auto.
  - apply (sim_bind v p (Forall v) (fun j => map (p j)) _ (fun j => f j x) (fun y => let* r := omap F xs in Some (y :: r)) (fun j y => let* r := omap (f j) xs in Some (y :: r))).
    { apply H. now left. }
    intros r Vr. apply (sim_bind (Forall v) (fun j => map (p j)) (Forall v) (fun j => map (p j)) _ (fun j => omap (f j) xs) (fun rs => Some (r :: rs)) (fun j rs => Some (p j r :: rs))).
    { apply IH. intros y I. apply H. now right. }
    intros rs Vrs. apply sim_some; auto.
Qed.

Notation vecs := (Forall vec).
Notation lanes := (fun j => map (lane j)).
Notation rows := (Forall vecs).
Notation rlanes := (fun j => map (map (lane j))).
Lemma lane_map2 f a b j : vec a -> vec b -> j < pack -> lane j (vmap2 K f a b) = f (lane j a) (lane j b).
Proof.
  unfold vec, lane, vmap2. intros Ha Hb Hj.
  rewrite (nth_indep _ f0 ((fun p : K * K => f (fst p) (snd p)) (f0, f0))) by (rewrite map_length, combine_length; lia).
  rewrite (map_nth (fun p : K * K => f (fst p) (snd p))), combine_nth by congruence. reflexivity.
Qed.
Lemma vec_map2 f a b : vec a -> vec b -> vec (vmap2 K f a b).
Proof. unfold vec, vmap2. rewrite map_length, combine_length. lia. Qed.
Lemma lane_repeat x j : j < pack -> lane j (repeat x pack) = x.
Proof.
  unfold lane. intros H. apply nth_error_nth. rewrite nth_error_repeat; auto.
Qed.
Lemma sim_coef pub k : vecs pub -> sim vec lane (coef_value_simd K pack rnds pub k) (fun j => coef_value K (lane j rnds) (map (lane j) pub) k).
Proof.
  intros HP. destruct k as [c| |id]; cbn [coef_value_simd coef_value].
  - apply sim_some; [unfold vec; now rewrite map_length, repeat_length|]. intros j Hj. unfold lane.
    rewrite (nth_indep _ f0 ((fun x : K => x * c)%K (f1 : K))) by (now rewrite map_length, repeat_length).
    rewrite (map_nth (fun x : K => x * c)%K). rewrite (nth_indep _ _ f0) by (now rewrite repeat_length).
    fold (lane j (repeat f1 pack : list K)). rewrite lane_repeat by auto. cbn [coef_value]. ring.
  - apply sim_some; auto.
  - now apply sim_aget.
Qed.
Lemma sim_input cur p : rows cur -> sim vec lane (input_at cur p) (fun j => input_at (map (map (lane j)) cur) p).
Proof.
  intros H. unfold input_at. eapply (sim_bind vecs lanes vec lane).
  - now apply sim_aget.
  - intros r Vr. now apply sim_aget.
Qed.
Lemma sim_bump nxt o v : vecs nxt -> vec v -> sim vecs lanes (bump_simd K nxt o v) (fun j => bump K (map (lane j) nxt) o (lane j v)).
Proof.
  intros H Hv. unfold bump_simd, bump. eapply (sim_bind vec lane vecs lanes).
  - now apply sim_aget.
  - intros r Vr. eapply sim_ext; [apply (sim_aset vec lane); auto; now apply vec_map2|].
    intros j Hj. cbn beta. unfold vadd. now rewrite lane_map2.
Qed.
Lemma sim_child a sub cur : rows cur -> sim rows rlanes (child_inputs K a sub cur) (fun j => child_inputs K a sub (map (map (lane j)) cur)).
Proof.
  intros H. unfold child_inputs. apply (sim_omap vecs lanes). intros (l & off & len) _.
  eapply (sim_bind vecs lanes vecs lanes); [now apply sim_aget|]. intros r Vr. now apply sim_slice.
Qed.
(** The custom gates are computed lane by lane *)
Lemma transpose_lanes u cur ins : rows cur ->
  omap (fun i => omap (fun p => let* v := input_at cur p in aget v i) (u_in (V:=K) u)) (seq 0 pack) = Some ins ->
  length ins = pack /\ forall j, j < pack -> exists x, nth_error ins j = Some x /\ omap (input_at (map (map (lane j)) cur)) (u_in u) = Some x.
Proof.
  intros H E. split; [apply omap_length in E; now rewrite seq_length in E|]. intros j Hj.
  pose proof (omap_nth _ _ _ j E) as Q. rewrite nth_error_seq0 in Q by auto.
  assert (L : length ins = pack) by (apply omap_length in E; now rewrite seq_length in E).
  destruct (nth_error ins j) as [x|] eqn:Ex; [|apply nth_error_None in Ex; lia]. exists x. split; auto. rewrite Q. clear - H Hj.
  induction (u_in u) as [|p ps IH]; cbn [omap]; auto. rewrite IH.
  enough (Q : input_at (map (map (lane j)) cur) p = (let* v := input_at cur p in aget v j)) by now rewrite Q.
  unfold input_at. unfold aget at 1 3. rewrite nth_error_map. destruct (nth_error cur (fst p)) as [row|] eqn:E; cbn [option_map obind]; auto.
  unfold aget. rewrite nth_error_map. destruct (nth_error row (snd p)) as [v|] eqn:Ev; cbn [option_map obind]; auto.
  symmetry. apply nth_error_nth'. rewrite Forall_forall in H. apply nth_error_In in E. specialize (H _ E). rewrite Forall_forall in H.
  apply nth_error_In in Ev. specialize (H _ Ev). unfold vec in H. lia.
Qed.
Lemma sim_custom_in u cur : rows cur ->
  sim (fun ins : list (list K) => length ins = pack /\ Forall (fun x => length x = length (u_in (V:=K) u)) ins) (fun j ins => nth j ins [])
    (omap (fun i => omap (fun p => let* v := input_at cur p in aget v i) (u_in u)) (seq 0 pack)) (fun j => omap (input_at (map (map (lane j)) cur)) (u_in u)).
Proof.
  intros H. destruct (omap _ _) as [ins|] eqn:E; cbn [sim].
  - destruct (transpose_lanes u cur ins H E) as (L & T). split; [split; auto|].
    + apply Forall_forall. intros x I. apply In_nth_error in I as (j & Ej).
      assert (Hj : j < pack) by (rewrite <- L; apply nth_error_Some; congruence). destruct (T j Hj) as (y & Ey & Q).
      rewrite Ej in Ey. injection Ey as <-. now apply omap_length in Q.
    + intros j Hj. destruct (T j Hj) as (y & Ey & ->). now rewrite (nth_error_nth _ _ _ Ey).
  - (* an input fails in every lane *)
    exists 0. split; auto.
    destruct (omap (input_at (map (map (lane 0)) cur)) (u_in u)) as [x|] eqn:Ex; auto. exfalso.
    destruct (omap_some (fun i => omap (fun p => let* v := input_at cur p in aget v i) (u_in u)) (seq 0 pack)) as (r & Er & _); [|congruence].
    intros i Hi. apply in_seq in Hi. destruct (omap_some (fun p => let* v := input_at cur p in aget v i) (u_in u)) as (r & Er & _); [|eauto].
    intros p Ip. pose proof (sim_input cur p H) as S. unfold sim in S. destruct (input_at cur p) as [v|].
    + cbn [obind]. destruct S as (Vv & _). unfold aget. destruct (nth_error v i) eqn:Ev; eauto. apply nth_error_None in Ev. unfold vec in Vv. lia.
    + destruct S as (j & Hj & S). exfalso.
      enough (input_at (map (map (lane 0)) cur) p = None) as Q.
      { clear - Ip Q Ex. revert x Ex. induction (u_in u) as [|q ps IH]; intros x Ex; [inversion Ip|]. cbn [omap] in Ex. destruct Ip as [ -> |Ip].
        - now rewrite Q in Ex.
        - destruct (input_at _ q); [|discriminate]. cbn [obind] in Ex. destruct (omap _ ps) eqn:Eo; [|discriminate]. eapply IH; eauto. }
      unfold input_at, aget in S |- *. rewrite nth_error_map in *. destruct (nth_error cur (fst p)); cbn [option_map obind] in *; auto.
      rewrite nth_error_map in *. destruct (nth_error l (snd p)); cbn in *; auto; discriminate.
Qed.
Lemma omap_none {A B} (f : A -> option B) l : omap f l = None -> exists x, In x l /\ f x = None.
Proof.
  induction l as [|a l IH]; cbn; [discriminate|]. destruct (f a) eqn:E; cbn; [|intros _; exists a; auto].
  destruct (omap f l); cbn; [discriminate|]. intros _. destruct IH as (x & I & Q); auto. exists x. auto.
Qed.
Lemma sim_custom_out t ins n : length ins = pack -> Forall (fun x => length x = n) ins ->
  sim (fun outs : list (list K) => length outs = pack /\ exists m, Forall (fun x => length x = m) outs) (fun j outs => nth j outs [])
    (omap (custom t) ins) (fun j => custom t (nth j ins [])).
Proof.
  intros L HF. destruct (omap _ _) as [outs|] eqn:E; cbn [sim].
  - pose proof (omap_length _ _ _ E) as LO. assert (Q : forall j, j < pack -> custom t (nth j ins []) = Some (nth j outs [])).
    { intros j Hj. pose proof (omap_nth _ _ _ j E) as Q. rewrite (nth_error_nth' outs []), (nth_error_nth' ins []) in Q by lia. auto. }
    split; auto. split; [lia|]. exists (length (nth 0 outs [])). apply Forall_forall. intros x I. apply (In_nth _ _ []) in I as (j & Hj & <-).
    rewrite Forall_forall in HF. apply (custom_uniform t (nth j ins []) (nth 0 ins [])); try (apply Q; lia).
    rewrite !HF; auto; apply nth_In; lia.
  - apply omap_none in E as (x & I & E). apply (In_nth _ _ []) in I as (j & Hj & Q). exists j. split; [lia|]. now rewrite Q.
Qed.
Lemma for_each_combine_seq {A S} (f : nat * A -> S -> option S) (l : list A) d s :
  for_each (combine (seq 0 (length l)) l) f s = for_each (seq 0 (length l)) (fun i => f (i, nth i l d)) s.
Proof.
  enough (G : forall pre rest s, l = pre ++ rest ->
    for_each (combine (seq (length pre) (length rest)) rest) f s = for_each (seq (length pre) (length rest)) (fun i => f (i, nth i l d)) s)
    by exact (G [] l s eq_refl).
  intros pre rest. revert pre. induction rest as [|a rest IH]; intros pre t E; cbn; auto.
  replace (nth (length pre) l d) with a by (rewrite E, app_nth2, Nat.sub_diag; auto).
  destruct (f _ t) as [t'|]; cbn [obind]; auto. specialize (IH (pre ++ [a]) t').
  rewrite app_length, Nat.add_1_r in IH. apply IH. now rewrite E, <- app_assoc.
Qed.

Lemma sim_apply segs pub : vecs pub -> forall fuel s cur nxt, rows cur -> vecs nxt ->
  sim vecs lanes (apply_segment_simd K custom pack rnds fuel segs pub s cur nxt)
    (fun j => apply_segment K (lane j rnds) custom fuel segs (map (lane j) pub) s (map (map (lane j)) cur) (map (lane j) nxt)).
Proof.
  intros HP. induction fuel as [|fuel IH]; intros s cur nxt HC HN; cbn [apply_segment_simd apply_segment]; [exists 0; auto|].
  eapply (sim_bind vecs lanes vecs lanes).
  { apply (sim_for_each vecs lanes _ (fun j m nxt => let* x := input_at (map (map (lane j)) cur) (m_in0 m) in
        let* y := input_at (map (map (lane j)) cur) (m_in1 m) in let* k := coef_value K (lane j rnds) (map (lane j) pub) (m_coef m) in
        bump K nxt (m_out m) (x * y * k)%K)); auto. intros m n _ Hn. cbn beta.
    eapply (sim_bind vec lane); [now apply sim_input|]. intros x Hx. eapply (sim_bind vec lane); [now apply sim_input|]. intros y Hy.
    eapply (sim_bind vec lane); [now apply sim_coef|]. intros k Hk. unfold vmul.
    eapply sim_ext; [apply sim_bump; auto; repeat apply vec_map2; auto|]. intros j Hj. cbn beta. rewrite !lane_map2; auto. now apply vec_map2. }
  clear nxt HN. intros nxt HN. eapply (sim_bind vecs lanes vecs lanes).
  { apply (sim_for_each vecs lanes _ (fun j a nxt => let* x := input_at (map (map (lane j)) cur) (a_in a) in
        let* k := coef_value K (lane j rnds) (map (lane j) pub) (a_coef a) in bump K nxt (a_out a) (x * k)%K)); auto. intros m n _ Hn. cbn beta.
    eapply (sim_bind vec lane); [now apply sim_input|]. intros x Hx.
    eapply (sim_bind vec lane); [now apply sim_coef|]. intros k Hk. unfold vmul.
    eapply sim_ext; [apply sim_bump; auto; repeat apply vec_map2; auto|]. intros j Hj. cbn beta. rewrite !lane_map2; auto. }
  clear nxt HN. intros nxt HN. eapply (sim_bind vecs lanes vecs lanes).
  { apply (sim_for_each vecs lanes _ (fun j g nxt => let* k := coef_value K (lane j rnds) (map (lane j) pub) (k_coef g) in bump K nxt (k_out g) k)); auto.
    intros m n _ Hn. cbn beta. eapply (sim_bind vec lane); [now apply sim_coef|]. intros k Hk. now apply sim_bump. }
  clear nxt HN. intros nxt HN. eapply (sim_bind vecs lanes vecs lanes).
  { apply (sim_for_each vecs lanes _ (fun j u nxt => let* ins := omap (input_at (map (map (lane j)) cur)) (u_in u) in
        let* outs := custom (u_type u) ins in
        for_each (combine (seq 0 (length outs)) outs) (fun (e : nat * K) nxt =>
          let* k := coef_value K (lane j rnds) (map (lane j) pub) (u_coef u) in bump K nxt (u_out u + fst e) (snd e * k)%K) nxt)); auto.
    intros u n _ Hn. cbn beta.
    eapply (sim_bind _ (fun j ins => nth j ins [])); [now apply sim_custom_in|]. intros ins (LI & FI). cbn beta.
    eapply (sim_bind _ (fun j outs => nth j outs [])); [eapply sim_custom_out; eassumption|]. intros outs (LO & m & FO). cbn beta.
    unfold aget at 1. rewrite (nth_error_nth' outs []) by lia. cbn [obind].
    assert (Q : forall j, j < pack -> length (nth j outs []) = m) by (intros j Hj; rewrite Forall_forall in FO; apply FO, nth_In; lia).
    rewrite (Q 0) by auto.
    eapply sim_ext. 2:{ intros j Hj. symmetry. rewrite (for_each_combine_seq _ _ f0), Q by auto. reflexivity. }
    cbn [fst snd].
    apply (sim_for_each vecs lanes _ (fun j i nxt => let* k := coef_value K (lane j rnds) (map (lane j) pub) (u_coef u) in
          bump K nxt (u_out u + i) (nth i (nth j outs []) f0 * k)%K)); auto.
    intros i n' Ii Hn'. apply in_seq in Ii. cbn beta.
    destruct (omap_some (fun x : list K => aget x i) outs) as (output & E & LE).
    { intros x Ix. rewrite Forall_forall in FO. apply FO in Ix. unfold aget. destruct (nth_error x i) eqn:Ex; eauto. apply nth_error_None in Ex. lia. }
    rewrite E. cbn [obind]. eapply (sim_bind vec lane); [now apply sim_coef|]. intros k Hk. cbn beta.
    assert (VO : vec output) by (unfold vec; lia).
    eapply sim_ext; [apply sim_bump; auto; now apply vec_map2|]. intros j Hj. cbn beta. unfold vmul. rewrite lane_map2 by auto. do 2 f_equal.
    unfold lane. pose proof (omap_nth _ _ _ j E) as Qj. rewrite (nth_error_nth' output f0), (nth_error_nth' outs []) in Qj by lia.
    unfold aget in Qj. symmetry in Qj. symmetry. now apply nth_error_nth. }
  clear nxt HN. intros nxt HN.
  apply (sim_for_each vecs lanes _ (fun j (ch : nat * list allocation) nxt =>
      let* sub := aget segs (fst ch) in
      for_each (snd ch) (fun a nxt =>
        let* ins := child_inputs K a sub (map (map (lane j)) cur) in
        let* out := slice nxt (al_out a) (al_out a + s_outputs sub) in
        let* out := apply_segment K (lane j rnds) custom fuel segs (map (lane j) pub) sub ins out in
        Some (splice nxt (al_out a) out)) nxt)); auto.
  intros ch n _ Hn. cbn beta. apply sim_bind_same. intros sub _.
  apply (sim_for_each vecs lanes _ (fun j a nxt =>
        let* ins := child_inputs K a sub (map (map (lane j)) cur) in
        let* out := slice nxt (al_out a) (al_out a + s_outputs sub) in
        let* out := apply_segment K (lane j rnds) custom fuel segs (map (lane j) pub) sub ins out in
        Some (splice nxt (al_out a) out))); auto.
  intros a m _ Hm. cbn beta. eapply (sim_bind rows rlanes); [now apply sim_child|]. intros ins HI. cbn beta.
  eapply (sim_bind vecs lanes); [now apply sim_slice|]. intros out HO. cbn beta.
  eapply (sim_bind vecs lanes); [now apply IH|]. intros out' HO'. cbn beta.
  apply sim_some; [now apply Forall_splice|]. intros j Hj. apply splice_map.
Qed.

Lemma sim_eval (c : circuit K) inputs pub : vecs inputs -> vecs pub ->
  sim (fun r : list (list K) * list bool => vecs (fst r) /\ length (snd r) = pack) (fun j r => (map (lane j) (fst r), nth j (snd r) false))
    (eval_simd K custom pack rnds c inputs pub)
    (fun j => eval_with_public_inputs K (lane j rnds) custom c (map (lane j) inputs) (map (lane j) pub)).
Proof.
  intros HI HP. unfold eval_simd, eval_with_public_inputs, eval_layers.
  destruct (input_size K c) as [n|]; [cbn [obind]|exists 0; auto].
  eapply sim_ext. 2:{ intros j _. symmetry. rewrite map_length. reflexivity. }
  destruct (length inputs =? n); [cbn [guard obind]|exists 0; auto].
  eapply (sim_bind rows rlanes).
  { apply (sim_for_each rows rlanes _ (fun j id cur =>
      let* s := aget (c_segments c) id in
      let* ins := layer_inputs K s cur in
      let* next := apply_segment K (lane j rnds) custom (S (length (c_segments c))) (c_segments c) (map (lane j) pub) s ins (repeat f0 (s_outputs s)) in
      Some (cur ++ [next])) (c_layers c)); [|repeat constructor; auto].
    intros id cur _ HC. cbn beta. apply sim_bind_same. intros s _.
    eapply (sim_bind rows rlanes).
    { unfold layer_inputs. apply (sim_omap vecs lanes). intros i _. rewrite map_length || idtac.
      eapply sim_ext. 2:{ intros j _. symmetry. rewrite map_length. reflexivity. }
      destruct (i + 1 <=? length cur); [cbn [guard obind]|exists 0; auto]. now apply sim_aget. }
    intros ins HIn. cbn beta. eapply (sim_bind vecs lanes).
    { eapply sim_ext; [apply sim_apply; auto|].
      - apply Forall_forall. intros v Iv. apply repeat_spec in Iv. subst v. unfold vec, vzero. apply repeat_length.
      - intros j Hj. cbn beta. f_equal. rewrite map_repeat'. f_equal. now apply lane_repeat. }
    intros nxt HN. apply sim_some; [apply Forall_app; split; auto|]. intros j Hj. now rewrite map_app. }
  intros all HA. cbn beta. eapply (sim_bind vecs lanes).
  { eapply sim_ext. 2:{ intros j _. symmetry. rewrite map_length. reflexivity. } now apply (sim_aget vecs lanes). }
  intros cur HC. cbn beta.
  assert (F : exists flags, for_each (firstn (c_zeroes c) cur) (fun out flags =>
      for_each (seq 0 pack) (fun i flags => let* x := aget out i in if is_zero K x then Some flags else aset flags i false) flags)
    (repeat true pack) = Some flags /\ arr flags pack (fun j => forallb (is_zero K) (map (lane j) (firstn (c_zeroes c) cur)))).
  { apply (for_each_rule (fun done flags => arr flags pack (fun j => forallb (is_zero K) (map (lane j) done)))).
    - eapply arr_ext; [apply arr_repeat|]. reflexivity.
    - intros done out rest flags E HF.
      assert (Vo : vec out). { rewrite Forall_forall in HC. apply HC. rewrite <- (firstn_skipn (c_zeroes c) cur), E, !in_app_iff. left. right. now left. }
      destruct (for_each_rule (fun is flags' => exists t, length is = t /\ t <= pack /\ is = seq 0 t /\
          arr flags' pack (fun j => forallb (is_zero K) (map (lane j) done) && (if j <? t then is_zero K (lane j out) else true)))
        (fun i flags => let* x := aget out i in if is_zero K x then Some flags else aset flags i false) (seq 0 pack) flags) as (f' & -> & t & Lt & _ & Et & HF').
      + exists 0. repeat split; auto; try lia; [apply HF|]. intros i Hi. rewrite (proj2 HF) by auto. cbn. now rewrite andb_true_r.
      + intros is i rest' f1 Es (t & Lt & Ht & -> & H1). rewrite seq_length in Lt. clear Lt.
        assert (Hit : i = t /\ t < pack).
        { pose proof (f_equal (fun l => nth_error l t) Es) as Q. cbn beta in Q. rewrite nth_error_app2 in Q by (rewrite seq_length; lia).
          rewrite seq_length, Nat.sub_diag in Q. cbn [nth_error] in Q.
          assert (t < pack). { pose proof (f_equal (@length _) Es) as Q2. rewrite seq_length, app_length, seq_length in Q2. cbn in Q2. lia. }
          rewrite nth_error_seq0 in Q by auto. split; congruence. }
        destruct Hit as (-> & Hp). unfold aget. rewrite (nth_error_nth' out f0) by (unfold vec in Vo; lia). cbn [obind]. fold (lane t out).
        destruct (is_zero K (lane t out)) eqn:Z.
        * exists f1. split; auto. exists (S t). rewrite app_length, seq_length. cbn [length]. repeat split; try lia.
          { now rewrite seq_S. } { apply H1. } intros j Hj. rewrite (proj2 H1) by auto. do 2 f_equal.
          destruct (Nat.ltb_spec j t), (Nat.ltb_spec j (S t)); auto; try lia. assert (j = t) by lia. now subst.
        * destruct (arr_set f1 pack _ t false H1 Hp) as (f2 & E2 & H2). exists f2. split; auto.
          exists (S t). rewrite app_length, seq_length. cbn [length]. repeat split; try lia.
          { now rewrite seq_S. } { apply H2. } intros j Hj. rewrite (proj2 H2) by auto. f_equal.
          destruct (Nat.eqb_spec j t) as [ -> |N]; [replace (t <? S t) with true by (symmetry; apply Nat.ltb_lt; lia); now rewrite Z, andb_false_r|].
          f_equal. destruct (Nat.ltb_spec j t), (Nat.ltb_spec j (S t)); auto; lia.
      + exists f'. split; auto. rewrite seq_length in Lt. subst t. eapply arr_ext; [exact HF'|]. intros j Hj. cbn beta.
        apply Nat.ltb_lt in Hj. rewrite Hj, map_app, forallb_app. cbn. now rewrite andb_true_r. }
  destruct F as (flags & -> & HF). cbn [obind].
  eapply (sim_bind vecs lanes); [now apply sim_slice|]. intros out HO. cbn beta. apply sim_some.
  - cbn. split; auto. apply HF.
  - intros j Hj. cbn [fst snd]. f_equal. rewrite firstn_map. symmetry. apply nth_error_nth. now apply HF.
Qed.
End Lanes.
