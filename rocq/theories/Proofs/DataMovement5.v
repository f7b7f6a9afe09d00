(** Tile, Pad and Expand. *)
From Coq Require Import List Arith Bool ZArith Lia.
From Verif Require Import Base.Array Spec.Shapes Spec.Tensors Model.Shapes Model.DataMovement Proofs.Shapes Proofs.Tensors Proofs.DataMovement Proofs.DataMovement2 Proofs.DataMovement3 Proofs.DataMovement4.
Import ListNotations.
Local Open Scope list_scope.

(** *** Tile *)
Lemma combine_nth' {A B} (l : list A) (m : list B) i d e : i < length l -> length l = length m ->
  nth_error (combine l m) i = Some (nth i l d, nth i m e).
Proof.
  intros Hi L. rewrite (nth_error_nth' _ (d, e)) by (rewrite combine_length; lia). now rewrite combine_nth.
Qed.
Lemma infer_tile_ok s reps : length reps = length s ->
  forall o, infer_tile s reps = Some o <-> Forall (fun r => (1 <= r)%Z) reps /\ o = map2 Nat.mul s (map Z.to_nat reps).
Proof.
  intros L o. unfold infer_tile. rewrite L, Nat.leb_refl. cbn [guard obind]. rewrite Nat.sub_diag. cbn [repeat app].
  revert reps L o. induction s as [|d s IH]; intros [|r reps] L o; cbn in L; try discriminate.
  - cbn. split; [intros E; injection E as <-; auto|intros (_ & ->); auto].
  - cbn [combine omap map]. destruct (Z.ltb_spec r 1).
    + cbn [obind]. split; [discriminate|]. intros (F & _). inversion F; subst. lia.
    + cbn [obind]. destruct (omap _ (combine s reps)) as [q|] eqn:E.
      * cbn [obind]. destruct (proj1 (IH reps ltac:(lia) q) E) as (F & ->). split.
        -- intros G. injection G as <-. split; [constructor; auto|reflexivity].
        -- intros (_ & ->). reflexivity.
      * split; [discriminate|]. intros (F & ->). inversion F; subst.
        pose proof (proj2 (IH reps ltac:(lia) _) (conj H3 eq_refl)). congruence.
Qed.
Lemma tile_repeats_ok s reps : length reps = length s -> Forall (fun r => r <> 0) reps ->
  (exists q, tile_repeats s (map2 Nat.mul s reps) = Some q) <-> Forall (fun d => 0 < d) s.
Proof.
  intros L P. unfold tile_repeats. rewrite map2_length by auto. rewrite Nat.eqb_refl. cbn [guard obind].
  revert reps L P. induction s as [|d s IH]; intros [|r reps] L P; cbn in L; try discriminate.
  - cbn. split; eauto.
  - inversion P; subst. cbn [map2 combine map omap fst snd]. split.
    + intros (q & E). destruct (Nat.eqb_spec (d * r) 0); [discriminate|]. cbn [guard negb obind] in E.
      destruct (Nat.eqb_spec d 0); [discriminate|]. cbn [guard negb obind] in E.
      destruct (d * r mod d =? 0); [|discriminate]. cbn [guard obind] in E.
      destruct (omap _ (combine _ s)) as [q'|] eqn:E'; [|discriminate]. constructor; [lia|]. apply (IH reps); eauto.
    + intros F. inversion F; subst. destruct (proj2 (IH reps ltac:(lia) H2) H4) as (q & E).
      rewrite (proj2 (Nat.eqb_neq (d * r) 0)) by nia. cbn [guard negb obind]. rewrite (proj2 (Nat.eqb_neq d 0)) by lia.
      cbn [guard negb obind]. rewrite Nat.mul_comm, Nat.mod_mul by lia. cbn [Nat.eqb guard obind].
      change (combine (map (fun p => fst p * snd p) (combine s reps)) s) with (combine (map2 Nat.mul s reps) s).
      rewrite E. cbn [obind]. eauto.
Qed.
Lemma tile_repeats_value s reps : length reps = length s -> forall q, tile_repeats s (map2 Nat.mul s reps) = Some q -> q = reps.
Proof.
  intros L q. unfold tile_repeats. rewrite map2_length by auto. rewrite Nat.eqb_refl. cbn [guard obind].
  revert reps L q. induction s as [|d s IH]; intros [|r reps] L q; cbn in L; try discriminate.
  - cbn. congruence.
  - cbn [map2 combine map omap fst snd]. intros E. destruct (Nat.eqb_spec (d * r) 0); [discriminate|]. cbn [guard negb obind] in E.
    destruct (Nat.eqb_spec d 0); [discriminate|]. cbn [guard negb obind] in E.
    destruct (d * r mod d =? 0); [|discriminate]. cbn [guard obind] in E.
    destruct (omap _ (combine _ s)) as [q'|] eqn:E'; [|discriminate]. injection E as <-.
    rewrite Nat.mul_comm, Nat.div_mul by lia. f_equal. apply IH; auto.
Qed.
Theorem tile_result {T} repeats (x : tensor T) : well_formed x -> length repeats = length (dims x) ->
  Forall (fun r => (1 <= r)%Z) repeats -> Forall (fun d => 0 < d) (dims x) ->
  exists y, tile repeats x = Some y /\ well_formed y /\ tiled (map Z.to_nat repeats) x y.
Proof.
  intros W L R D. unfold tile. rewrite (proj2 (infer_tile_ok _ _ L _) (conj R eq_refl)). cbn [obind].
  assert (Lr : length (map Z.to_nat repeats) = length (dims x)) by now rewrite map_length.
  assert (P : Forall (fun r => r <> 0) (map Z.to_nat repeats)).
  { apply Forall_map. eapply Forall_impl; [|exact R]. cbn. intros; lia. }
  destruct (proj2 (tile_repeats_ok _ _ Lr P) D) as (q & E). pose proof (tile_repeats_value _ _ Lr _ E) as ->.
  rewrite E. cbn [obind]. apply tile_loop; auto.
Qed.
Theorem tile_only {T} repeats (x y : tensor T) : length repeats = length (dims x) -> tile repeats x = Some y ->
  Forall (fun r => (1 <= r)%Z) repeats /\ Forall (fun d => 0 < d) (dims x).
Proof.
  intros L E. unfold tile in E. destruct (infer_tile (dims x) repeats) as [o|] eqn:Ei; [|discriminate]. cbn [obind] in E.
  apply infer_tile_ok in Ei; auto. destruct Ei as (R & ->). split; auto.
  assert (Lr : length (map Z.to_nat repeats) = length (dims x)) by now rewrite map_length.
  assert (P : Forall (fun r => r <> 0) (map Z.to_nat repeats)).
  { apply Forall_map. eapply Forall_impl; [|exact R]. cbn. intros; lia. }
  apply (tile_repeats_ok _ _ Lr P). destruct (tile_repeats _ _) as [q|]; [eauto|discriminate].
Qed.

(** *** Pad *)
Lemma omap_compose {A B C} (F : A -> option B) (G : B -> option C) l m : omap F l = Some m ->
  omap G m = omap (fun a => let* b := F a in G b) l.
Proof.
  revert m. induction l as [|a l IH]; cbn [omap]; intros m E; [injection E as <-; reflexivity|].
  destruct (F a) as [b|]; [|discriminate]. cbn [obind] in E |- *. destruct (omap F l) as [m'|]; [|discriminate].
  injection E as <-. cbn [omap]. now rewrite (IH m' eq_refl).
Qed.
Section Pad.
Variables (s b : list nat).
Hypothesis Lb : length b = length s.
Definition inside (oc : list nat) : bool :=
  forallb (fun k => (nth k b 0 <=? nth k oc 0) && (nth k oc 0 - nth k b 0 <? nth k s 0)) (seq 0 (length s)).
Definition minus (oc : list nat) : list nat := map (fun k => nth k oc 0 - nth k b 0) (seq 0 (length s)).
Lemma pad_inner oc : length oc = length s ->
  for_in (seq 0 (length s)) (fun ax (in_coords : option (list nat)) =>
      match in_coords with
      | None => Some None
      | Some cs =>
        let* o := aget oc ax in
        let* b := aget b ax in
        let* d := aget s ax in
        Some (if (b <=? o) && (o - b <? d) then Some (cs ++ [o - b]) else None)
      end) (Some []) = Some (if inside oc then Some (minus oc) else None).
Proof.
  intros Lo. set (test := fun k => (nth k b 0 <=? nth k oc 0) && (nth k oc 0 - nth k b 0 <? nth k s 0)).
  destruct (for_seq (fun j st => st = if forallb test (seq 0 j) then Some (map (fun k => nth k oc 0 - nth k b 0) (seq 0 j)) else None)
    (fun ax (in_coords : option (list nat)) =>
      match in_coords with
      | None => Some None
      | Some cs =>
        let* o := aget oc ax in
        let* b := aget b ax in
        let* d := aget s ax in
        Some (if (b <=? o) && (o - b <? d) then Some (cs ++ [o - b]) else None)
      end) 0 (length s) (Some []) eq_refl) as (st & E & ->); [|exact E].
  intros j st Hj ->. rewrite seq_S, forallb_app, map_app. cbn [forallb map Nat.add]. rewrite andb_true_r.
  destruct (forallb test (seq 0 j)).
  - rewrite !nth_get by lia. cbn [obind]. unfold test. eexists. split; [reflexivity|]. reflexivity.
  - eexists. split; reflexivity.
Qed.
Lemma inside_iff oc : length oc = length s -> (inside oc = true <-> in_range (minus oc) s /\ map2 Nat.add (minus oc) b = oc).
Proof.
  intros Lo. assert (Lm : length (minus oc) = length s) by (unfold minus; now rewrite map_length, seq_length).
  assert (Nm : forall i, i < length s -> nth i (minus oc) 0 = nth i oc 0 - nth i b 0).
  { intros i Hi. unfold minus. now rewrite nth_map_seq. }
  unfold inside. rewrite forallb_forall. split.
  - intros H. assert (H' : forall i, i < length s -> nth i b 0 <= nth i oc 0 /\ nth i oc 0 - nth i b 0 < nth i s 0).
    { intros i Hi. specialize (H i). rewrite in_seq, andb_true_iff, Nat.leb_le, Nat.ltb_lt in H. apply H. lia. }
    split.
    + apply in_range_nth. split; auto. intros i Hi. rewrite Nm by auto. now apply H'.
    + apply (list_nth_ext 0); rewrite map2_length by lia; [lia|]. intros i Hi.
      rewrite (map2_nth _ _ _ _ 0 0) by lia. rewrite Nm by lia. destruct (H' i); lia.
  - intros (R & E) i Hi. apply in_seq in Hi. apply andb_true_iff. rewrite Nat.leb_le, Nat.ltb_lt.
    apply in_range_nth in R. destruct R as (_ & R). specialize (R i ltac:(lia)). rewrite Nm in R by lia.
    apply (f_equal (fun l => nth i l 0)) in E. rewrite (map2_nth _ _ _ _ 0 0) in E by lia. rewrite Nm in E by lia. lia.
Qed.
Lemma minus_add c : in_range c s -> minus (map2 Nat.add c b) = c.
Proof.
  intros R. pose proof (in_range_length _ _ R) as L. unfold minus. apply (list_nth_ext 0); rewrite map_length, seq_length; auto.
  intros i Hi. rewrite nth_map_seq by auto. rewrite (map2_nth _ _ _ _ 0 0) by lia. lia.
Qed.
End Pad.
Lemma infer_pad_ok s pads o : infer_pad s pads = Some o <->
  length pads = 2 * length s /\ Forall (fun p => (0 <= p)%Z) pads /\
  o = map2 Nat.add (map2 Nat.add s (map Z.to_nat (firstn (length s) pads))) (map Z.to_nat (skipn (length s) pads)).
Proof.
  unfold infer_pad. set (n := length s). destruct (Nat.eqb_spec (length pads) (2 * n)) as [L|N].
  2:{ cbn [guard obind]. split; [discriminate|]. tauto. }
  cbn [guard obind].
  assert (Lb : length (map Z.to_nat (firstn n pads)) = n) by (rewrite map_length, firstn_length; lia).
  assert (Le : length (map Z.to_nat (skipn n pads)) = n) by (rewrite map_length, skipn_length; lia).
  assert (Nb : forall i, i < n -> nth i (map Z.to_nat (firstn n pads)) 0 = Z.to_nat (nth i pads 0%Z)).
  { intros i Hi. rewrite (map_nth_lt _ _ _ 0%Z) by (rewrite firstn_length; lia). f_equal.
    rewrite <- (firstn_skipn n pads) at 2. rewrite app_nth1 by (rewrite firstn_length; lia). reflexivity. }
  assert (Ne : forall i, i < n -> nth i (map Z.to_nat (skipn n pads)) 0 = Z.to_nat (nth (n + i) pads 0%Z)).
  { intros i Hi. rewrite (map_nth_lt _ _ _ 0%Z) by (rewrite skipn_length; lia). f_equal. now rewrite nth_skip. }
  set (F := fun i => let* b := aget pads i in let* e := aget pads (n + i) in let* d := aget s i in
     if ((b <? 0) || (e <? 0))%Z then None else Some (d + Z.to_nat b + Z.to_nat e)).
  assert (FE : forall i, i < n -> F i = if ((nth i pads 0 <? 0) || (nth (n + i) pads 0 <? 0))%Z then None
      else Some (nth i s 0 + Z.to_nat (nth i pads 0%Z) + Z.to_nat (nth (n + i) pads 0%Z))).
  { intros i Hi. unfold F. rewrite (nth_getZ pads i 0%Z) by lia. cbn [obind]. rewrite (nth_getZ pads (n + i) 0%Z) by lia. cbn [obind].
    rewrite nth_get by (fold n; lia). reflexivity. }
  assert (FO : Forall (fun p => (0 <= p)%Z) pads -> omap F (seq 0 n) = Some (map2 Nat.add (map2 Nat.add s (map Z.to_nat (firstn n pads))) (map Z.to_nat (skipn n pads)))).
  { intros P. rewrite Forall_forall in P. rewrite (omap_seq F (fun i => nth i s 0 + Z.to_nat (nth i pads 0%Z) + Z.to_nat (nth (n + i) pads 0%Z))).
    - f_equal. apply (list_nth_ext 0); rewrite map_length, seq_length.
      + rewrite !map2_length; unfold n in *; try lia; rewrite ?map2_length; lia.
      + intros i Hi. rewrite nth_map_seq by auto. rewrite (map2_nth _ _ _ _ 0 0) by (rewrite map2_length; unfold n in *; lia).
        rewrite (map2_nth _ _ _ _ 0 0) by (unfold n in *; lia). now rewrite Nb, Ne by auto.
    - intros i Hi. rewrite FE by auto.
      rewrite (proj2 (Z.ltb_ge (nth i pads 0%Z) 0)) by (apply P, nth_In; lia).
      rewrite (proj2 (Z.ltb_ge (nth (n + i) pads 0%Z) 0)) by (apply P, nth_In; lia). reflexivity. }
  change (omap _ (seq 0 n)) with (omap F (seq 0 n)). split.
  - intros E. split; auto.
    assert (P : Forall (fun p => (0 <= p)%Z) pads).
    { pose proof (proj2 (omap_exists F (seq 0 n)) (ex_intro _ _ E)) as H.
      assert (H' : forall i, i < n -> (0 <= nth i pads 0 /\ 0 <= nth (n + i) pads 0)%Z).
      { intros i Hi. destruct (H i) as (v & Ev); [apply in_seq; lia|]. rewrite FE in Ev by auto.
        destruct (Z.ltb_spec (nth i pads 0%Z) 0); [discriminate|]. destruct (Z.ltb_spec (nth (n + i) pads 0%Z) 0); [discriminate|]. lia. }
      apply Forall_forall. intros p Hp. apply (In_nth _ _ 0%Z) in Hp. destruct Hp as (i & Hi & <-).
      destruct (Nat.lt_ge_cases i n) as [Hn|Hn]; [apply H'; auto|].
      replace i with (n + (i - n)) by lia. apply H'. lia. }
    split; auto. rewrite FO in E by auto. congruence.
  - intros (_ & P & ->). now apply FO.
Qed.
Theorem pad_result {T} (zero : T) pads value axes (x : tensor T) : well_formed x -> length pads = 2 * length (dims x) ->
  Forall (fun p => (0 <= p)%Z) pads -> match value with ValueWeight v => v = 0%Z | _ => True end ->
  exists y, pad zero true pads value axes x = Some y /\ well_formed y /\
    padded zero (map Z.to_nat (firstn (length (dims x)) pads)) (map Z.to_nat (skipn (length (dims x)) pads)) x y.
Proof.
  intros W L P V. unfold pad. set (s := dims x) in *. set (b := map Z.to_nat (firstn (length s) pads)).
  set (e := map Z.to_nat (skipn (length s) pads)). set (o := map2 Nat.add (map2 Nat.add s b) e).
  rewrite (proj2 (infer_pad_ok s pads o)) by (split; auto). cbn [guard obind].
  rewrite (proj2 (Nat.eqb_eq _ _) L). cbn [guard obind].
  replace (match value with ValueWeight v => (v =? 0)%Z | _ => true end) with true
    by (destruct value; auto; subst v; reflexivity).
  cbn [guard obind].
  assert (Ep : existsb (fun p => (p <? 0)%Z) pads = false).
  { destruct (existsb _ _) eqn:E; auto. apply existsb_exists in E. destruct E as (p & Hp & E). rewrite Forall_forall in P.
    specialize (P p Hp). apply Z.ltb_lt in E. lia. }
  rewrite Ep. cbn [guard negb obind].
  assert (Lb : length b = length s) by (unfold b; rewrite map_length, firstn_length; lia).
  assert (Le : length e = length s) by (unfold e; rewrite map_length, skipn_length; lia).
  assert (Lo : length o = length s) by (unfold o; rewrite !map2_length; try rewrite map2_length; lia).
  unfold pad_index_map.
  match goal with |- context [omap ?f (seq 0 (prod o))] => set (F := f) end.
  assert (FE : forall oc, in_range oc o -> F (row_major oc o) = Some (if inside s b oc then Some (row_major (minus s b oc) s) else None)).
  { intros oc R. unfold F. rewrite unravel_row_major by exact R. cbn [obind]. pose proof (in_range_length _ _ R) as Loc.
    rewrite (pad_inner s b Lb oc) by lia. cbn [obind]. destruct (inside s b oc) eqn:I; [|reflexivity].
    apply inside_iff in I; try lia. destruct I as (Rm & _). rewrite ravel_row_major by (now apply in_range_length). reflexivity. }
  destruct (index_map_ok F o _ FE) as (m & Em & Lm & _). rewrite Em. cbn [obind].
  rewrite (omap_compose _ _ _ _ Em).
  destruct (tabulate_ok (fun a => let* b0 := F a in match b0 with Some i => aget (flat x) i | None => Some zero end) o
    (fun oc => if inside s b oc then elem x (minus s b oc) else Some zero)) as (out & Eo & Lout & El).
  { intros oc R. pose proof (in_range_length _ _ R) as Loc. rewrite FE by auto. cbn [obind].
    destruct (inside s b oc) eqn:I; [|split; [reflexivity|discriminate]].
    apply inside_iff in I; try lia. destruct I as (Rm & _). fold s in Rm. split; [now rewrite elem_in|].
    destruct (elem_exists x (minus s b oc) W Rm) as (v & ->). discriminate. }
  rewrite Eo. cbn [obind]. unfold from_shape_vec. rewrite (proj2 (Nat.eqb_eq _ _) Lout).
  eexists. split; [reflexivity|]. split; [exact Lout|]. split; [reflexivity|]. cbn [dims]. split.
  - fold s. intros c R. pose proof (in_range_length _ _ R) as Lc.
    assert (Ro : in_range (map2 Nat.add c b) o).
    { apply in_range_nth. rewrite map2_length by lia. split; [lia|]. intros i Hi. unfold o.
      rewrite !(map2_nth _ _ _ _ 0 0) by (rewrite ?map2_length; lia). apply in_range_nth in R. destruct R as (_ & R).
      specialize (R i ltac:(lia)). lia. }
    rewrite El by exact Ro. pose proof (minus_add s b Lb c R) as Emn.
    assert (Lc2 : length (map2 Nat.add c b) = length s) by (rewrite map2_length; lia).
    rewrite (proj2 (inside_iff s b Lb _ Lc2)); rewrite Emn; auto.
  - fold s. intros c R H. rewrite El by exact R. destruct (inside s b c) eqn:I; auto.
    pose proof (in_range_length _ _ R). apply inside_iff in I; try lia. destruct I as (Rm & E). now elim (H _ Rm).
Qed.
Theorem pad_only {T} (zero : T) mode pads value axes (x y : tensor T) : pad zero mode pads value axes x = Some y ->
  mode = true /\ length pads = 2 * length (dims x) /\ Forall (fun p => (0 <= p)%Z) pads /\
  match value with ValueWeight v => v = 0%Z | _ => True end.
Proof.
  intros E. unfold pad in E. destruct (infer_pad (dims x) pads) as [o|] eqn:Ei; [|discriminate]. cbn [obind] in E.
  apply infer_pad_ok in Ei. destruct Ei as (L & P & _). destruct mode; [|discriminate]. cbn [guard obind] in E.
  destruct (length pads =? 2 * length (dims x)); [|discriminate]. cbn [guard obind] in E. repeat split; auto.
  destruct value; auto. destruct (Z.eqb_spec v 0); auto. discriminate.
Qed.

(** *** Expand *)
Lemma from_right_nth a n i : length a <= n -> i < n ->
  (if i <? n - length a then Some 1 else aget a (i - (n - length a))) = Some (dim_from_right a (n - 1 - i)).
Proof.
  intros L Hi. unfold dim_from_right. destruct (Nat.ltb_spec i (n - length a)).
  - rewrite nth_overflow by (rewrite rev_length; lia). reflexivity.
  - rewrite rev_nth by lia. rewrite nth_get by lia. rewrite (nth_indep a 1 0) by lia. do 2 f_equal. lia.
Qed.
Lemma from_right_same o k : k < length o -> dim_from_right o (length o - 1 - k) = nth k o 0.
Proof.
  intros H. unfold dim_from_right. rewrite rev_nth by lia. rewrite (nth_indep o 1 0) by lia. f_equal. lia.
Qed.
Lemma agree_iff a b r : (if a =? b then Some a else if a =? 1 then Some b else if b =? 1 then Some a else None) = Some r <-> dims_agree a b r.
Proof.
  unfold dims_agree. destruct (Nat.eqb_spec a b); [split; [intros E; injection E; auto|intros; f_equal; lia]|].
  destruct (Nat.eqb_spec a 1); [split; [intros E; injection E; auto|intros; f_equal; lia]|].
  destruct (Nat.eqb_spec b 1); split; try discriminate; try (intros E; injection E; auto); intros; try (f_equal; lia).
Qed.
Theorem broadcast_shapes_ok a b o : broadcast_shapes a b = Some o <-> broadcasts_to a b o.
Proof.
  unfold broadcast_shapes, broadcasts_to. set (n := Nat.max (length a) (length b)).
  match goal with |- context [omap ?f (seq 0 n)] => set (F := f) end.
  assert (FE : forall i, i < n -> F i = let da := dim_from_right a (n - 1 - i) in let db := dim_from_right b (n - 1 - i) in
      if da =? db then Some da else if da =? 1 then Some db else if db =? 1 then Some da else None).
  { intros i Hi. unfold F. rewrite (from_right_nth a n i) by lia. cbn [obind]. rewrite (from_right_nth b n i) by lia. reflexivity. }
  split.
  - intros E. pose proof (omap_length _ _ _ E) as L. rewrite seq_length in L. split; auto. intros i Hi.
    pose proof (omap_nth _ _ _ _ _ E (seq_nth_error 0 n (n - 1 - i) ltac:(lia))) as H. cbn [Nat.add] in H.
    rewrite FE in H by lia. replace (n - 1 - (n - 1 - i)) with i in H by lia. apply agree_iff. cbv zeta in H. rewrite H.
    rewrite (nth_error_nth' _ 0) by lia. rewrite <- from_right_same by lia. do 2 f_equal. lia.
  - intros (L & H). rewrite (omap_seq F (fun i => nth i o 0)).
    + f_equal. apply (list_nth_ext 0); rewrite map_length, seq_length; auto. intros i Hi. now rewrite nth_map_seq.
    + intros i Hi. rewrite FE by auto. cbv zeta. apply agree_iff. rewrite <- (from_right_same o i) by lia.
      rewrite L. apply H. lia.
Qed.
Lemma Forall2_nth_intro {A B} (R : A -> B -> Prop) d e : forall l m, length l = length m ->
  (forall i, i < length l -> R (nth i l d) (nth i m e)) -> Forall2 R l m.
Proof.
  induction l as [|a l IH]; intros [|b m] L H; cbn in L; try discriminate; constructor.
  - apply (H 0). cbn. lia.
  - apply IH; [lia|]. intros i Hi. apply (H (S i)). cbn. lia.
Qed.
Lemma broadcasts_expands a b o : broadcasts_to a b o -> expands_to a o.
Proof.
  intros (L & H). split; [lia|]. apply (Forall2_nth_intro _ 0 0); [rewrite skipn_length; lia|].
  intros i Hi. rewrite nth_skip. set (k := length o - length a + i). rewrite <- (from_right_same o k) by (unfold k; lia).
  specialize (H (length o - 1 - k) ltac:(unfold k; lia)).
  assert (E : dim_from_right a (length o - 1 - k) = nth i a 0).
  { rewrite <- (from_right_same a i) by auto. f_equal. unfold k. lia. }
  rewrite E in H. unfold dims_agree in H. lia.
Qed.
Lemma prod_ones k : prod (repeat 1 k) = 1.
Proof. induction k as [|k IH]; auto. cbn [repeat]. rewrite prod_cons, IH. reflexivity. Qed.
Lemma zeros_in_ones k : in_range (repeat 0 k) (repeat 1 k).
Proof. induction k as [|k IH]; constructor; auto. Qed.
Lemma combine_app' {A B} (a a' : list A) (b b' : list B) : length a = length b -> combine (a ++ a') (b ++ b') = combine a b ++ combine a' b'.
Proof. revert b. induction a as [|x a IH]; intros [|y b] L; cbn in *; try discriminate; auto. now rewrite IH by lia. Qed.
Theorem broadcast_array_result {T} (x : tensor T) out : well_formed x -> expands_to (dims x) out ->
  exists y, broadcast_array x out = Some y /\ well_formed y /\ dims y = out /\ expanded x y.
Proof.
  intros W X. unfold broadcast_array. set (s := dims x) in *. pose proof X as (L & _).
  rewrite (proj2 (Nat.leb_le _ _) L). cbn [guard obind]. set (k := length out - length s).
  unfold from_shape_vec. rewrite prod_app, prod_ones, Nat.mul_1_l. unfold well_formed in W. fold s in W.
  rewrite (proj2 (Nat.eqb_eq _ _) W). cbn [obind]. unfold nd_broadcast. cbn [dims flat]. set (ps := repeat 1 k ++ s).
  assert (Lp : length ps = length out) by (unfold ps; rewrite app_length, repeat_length; unfold k; lia).
  rewrite (proj2 (Nat.eqb_eq _ _) Lp). cbn [guard obind].
  assert (G : forallb (fun '(d, t) => (d =? t) || (d =? 1)) (combine ps out) = true).
  { apply forallb_forall. intros (d & t) Hd. unfold ps in Hd. rewrite <- (firstn_skipn k out) in Hd.
    rewrite combine_app' in Hd by (rewrite repeat_length, firstn_length; unfold k; lia). apply in_app_or in Hd. destruct Hd as [Hd|Hd].
    - apply in_combine_l in Hd. apply repeat_spec in Hd as ->. now rewrite orb_true_r.
    - destruct X as (_ & F). fold k in F. clear - F Hd. apply orb_true_iff. rewrite !Nat.eqb_eq.
      induction F as [|p q l m H F IH]; cbn in Hd; [contradiction|]. destruct Hd as [E|Hd]; [injection E as <- <-; tauto|auto]. }
  rewrite G. cbn [guard obind]. set (g := fun oc => map (fun '(c, d) => if d =? 1 then 0 else c) (combine oc ps)).
  assert (Eg : forall oc, in_range oc out -> g oc = repeat 0 k ++ read_coords oc s).
  { intros oc R. pose proof (in_range_length _ _ R) as Lo. unfold g, ps, read_coords. rewrite Lo. fold k.
    rewrite <- (firstn_skipn k oc) at 1. assert (Lk : length (firstn k oc) = k) by (rewrite firstn_length; unfold k; lia).
    rewrite combine_app' by (now rewrite repeat_length). rewrite map_app. f_equal.
    - revert Lk. generalize (firstn k oc). clear. induction k as [|k IH]; intros [|c l] L; cbn in *; try discriminate; auto.
      f_equal. apply IH. lia.
    - apply map_ext. now intros (c & d). }
  assert (Hg : forall oc, in_range oc out -> in_range (read_coords oc s) s /\ in_range (g oc) ps /\ row_major (g oc) ps = row_major (read_coords oc s) s).
  { intros oc R. destruct (broadcast_index_ok oc out s R X) as (Rr & _). split; auto. rewrite Eg by auto. unfold ps.
    pose proof (row_major_lt _ _ (zeros_in_ones k)) as Z. rewrite prod_ones in Z.
    rewrite in_range_app by (now rewrite !repeat_length). split; [split; [apply zeros_in_ones|auto]|].
    rewrite row_major_app; [|now rewrite !repeat_length|now apply in_range_length]. nia. }
  match goal with |- context [omap ?f (seq 0 (prod out))] => set (F := f) end.
  destruct (index_map_ok F out (fun oc => row_major (read_coords oc s) s)) as (m & Em & Lm & Hm).
  { intros oc R. unfold F. rewrite unravel_row_major by exact R. cbn [obind]. destruct (Hg oc R) as (_ & Rg & Eq).
    change (map _ (combine oc ps)) with (g oc). rewrite ravel_row_major by (now apply in_range_length). now rewrite Eq. }
  rewrite Em. cbn [obind].
  destruct (select_ok x out m (fun oc => read_coords oc s) W Lm) as (y & E & Wy & Dy & Ey).
  { intros oc R. split; [now apply Hm|]. now apply Hg. }
  exists y. split; auto. split; auto. split; auto. split; rewrite Dy; auto.
Qed.
Theorem expand_result {T} shape (x : tensor T) target out : well_formed x -> shape = map Z.of_nat target ->
  broadcasts_to (dims x) target out ->
  exists y, expand shape x = Some y /\ well_formed y /\ dims y = out /\ expanded x y.
Proof.
  intros W -> B. unfold expand.
  assert (Et : omap (fun d => if (d <? 0)%Z then None else Some (Z.to_nat d)) (map Z.of_nat target) = Some target).
  { clear. induction target as [|d t IH]; auto. cbn [map omap]. rewrite (proj2 (Z.ltb_ge _ _)) by lia. cbn [obind].
    rewrite IH. cbn [obind]. now rewrite Nat2Z.id. }
  rewrite Et. cbn [obind]. rewrite (proj2 (broadcast_shapes_ok _ target out) B). cbn [obind].
  apply broadcast_array_result; auto. exact (broadcasts_expands _ _ _ B).
Qed.
Theorem expand_only {T} shape (x y : tensor T) : expand shape x = Some y ->
  exists target, shape = map Z.of_nat target /\ broadcasts_to (dims x) target (dims y).
Proof.
  unfold expand. intros E. destruct (omap _ shape) as [target|] eqn:Et; [|discriminate]. cbn [obind] in E.
  exists target. split.
  - clear E. revert target Et. induction shape as [|z shape IH]; cbn [omap]; intros target E; [injection E as <-; auto|].
    destruct (Z.ltb_spec z 0); [discriminate|]. cbn [obind] in E. destruct (omap _ shape) as [t|]; [|discriminate].
    injection E as <-. cbn [map]. rewrite Z2Nat.id by auto. f_equal. auto.
  - destruct (broadcast_shapes (dims x) target) as [o|] eqn:Eb; [|discriminate]. cbn [obind] in E. apply broadcast_shapes_ok in Eb.
    unfold broadcast_array in E. destruct (length (dims x) <=? length o); [|discriminate]. cbn [guard obind] in E.
    destruct (from_shape_vec _ _) as [r|]; [|discriminate]. cbn [obind] in E. unfold nd_broadcast in E.
    destruct (length (dims r) =? length o); [|discriminate]. cbn [guard obind] in E.
    destruct (forallb _ _); [|discriminate]. cbn [guard obind] in E. destruct (omap _ (seq 0 (prod o))) as [m|]; [|discriminate].
    cbn [obind] in E. unfold select in E. destruct (omap _ m) as [d|]; [|discriminate]. cbn [obind] in E. unfold from_shape_vec in E.
    destruct (length d =? prod o); [|discriminate]. injection E as <-. exact Eb.
Qed.
