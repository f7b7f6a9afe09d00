(** Concat (the layer), Tile, Pad and Expand. *)
From Coq Require Import List Arith Bool ZArith Lia.
From Verif Require Import Base.Array Spec.Shapes Spec.Tensors Model.Shapes Model.DataMovement Proofs.Shapes Proofs.Tensors Proofs.DataMovement Proofs.DataMovement2 Proofs.DataMovement3.
Import ListNotations.
Local Open Scope list_scope.

(** *** Concat *)
Lemma joins_nth axis s t : axis < length t -> (length s = length t /\ forall i, i < length t -> i <> axis -> nth i s 0 = nth i t 0) <-> joins axis s t.
Proof.
  intros Ha. unfold joins. split; intros (L & H); split; auto.
  - apply (list_nth_ext 0); rewrite !put_length by lia; auto. intros i Hi. rewrite !put_nth by lia.
    destruct (Nat.eqb_spec i axis); auto. apply H; lia.
  - intros i Hi N. apply (f_equal (fun l => nth i l 0)) in H. rewrite !put_nth in H by lia.
    destruct (Nat.eqb_spec i axis); [contradiction|exact H].
Qed.
Lemma infer_concat_ok first rest a axis : normalize_axis (length first) a = Some axis ->
  (exists o, infer_concat (first :: rest) a = Some o) <-> Forall (fun s => joins axis s first) rest.
Proof.
  intros Ea. pose proof (proj1 (normalize_axis_ok _ _ _) Ea) as (V & ->).
  set (axis := axis_position (Z.of_nat (length first)) a) in *. assert (Ha : axis < length first) by now apply axis_position_lt.
  unfold infer_concat. rewrite Ea. cbn [obind]. clear Ea. split.
  - intros (o & E). apply Forall_forall. intros s Hs. destruct (for_each_each _ _ _ _ E s Hs) as (t & t' & Es). clear E.
    destruct (Nat.eqb_spec (length s) (length first)); [|discriminate]. cbn [guard obind] in Es.
    destruct (forallb _ _) eqn:F; [|discriminate]. apply joins_nth; auto. split; auto. intros i Hi N.
    rewrite forallb_forall in F. specialize (F i). rewrite in_seq in F. specialize (F ltac:(lia)).
    apply orb_true_iff in F. rewrite !Nat.eqb_eq in F. tauto.
  - intros J. rewrite Forall_forall in J.
    destruct (for_each_rule (fun _ out => length out = length first)
      (fun s out_shape =>
        let* _ := guard (length s =? length first) in
        let* _ := guard (forallb (fun i => (i =? axis) || (nth i s 0 =? nth i first 0)) (seq 0 (length first))) in
        let* o := aget out_shape axis in
        let* d := aget s axis in
        aset out_shape axis (o + d)) rest first eq_refl) as (o & E & _); [|exists o; exact E].
    intros dn s rs t Er Lt. specialize (J s ltac:(rewrite Er; apply in_elt)). apply joins_nth in J; auto. destruct J as (L & J).
    rewrite L, Nat.eqb_refl. cbn [guard obind].
    rewrite (proj2 (forallb_forall _ _)).
    2:{ intros i Hi. apply in_seq in Hi. destruct (Nat.eqb_spec i axis); auto. cbn [orb]. apply Nat.eqb_eq. apply J; lia. }
    cbn [guard obind]. rewrite nth_get by lia. cbn [obind]. rewrite nth_get by lia. cbn [obind]. rewrite aset_put by lia.
    eexists. split; [reflexivity|]. rewrite put_length; lia.
Qed.
Theorem concat_result {T} a (first : tensor T) rest : Forall well_formed (first :: rest) ->
  valid_axis (Z.of_nat (length (dims first))) a ->
  let axis := axis_position (Z.of_nat (length (dims first))) a in
  Forall (fun x => length (dims x) = length (dims first) /\ put axis 0 (dims x) = put axis 0 (dims first)) rest ->
  exists y, concat_layer a (first :: rest) = Some y /\ well_formed y /\ concatenated axis (first :: rest) y.
Proof.
  intros W V axis J. unfold concat_layer. cbn [map].
  assert (Ea : normalize_axis (length (dims first)) a = Some axis) by (apply normalize_axis_ok; auto).
  destruct (proj2 (infer_concat_ok (dims first) (map dims rest) a axis Ea)) as (o & ->).
  { apply Forall_map. exact J. }
  cbn [obind]. rewrite Ea. cbn [obind].
  destruct (concatenate_ok axis (first :: rest) first eq_refl) as (y & E & Wy & C & _); auto.
  - now apply axis_position_lt.
  - constructor; [split; auto|]. exact J.
  - eauto.
Qed.
Theorem concat_only {T} a (first y : tensor T) rest : concat_layer a (first :: rest) = Some y ->
  let axis := axis_position (Z.of_nat (length (dims first))) a in
  valid_axis (Z.of_nat (length (dims first))) a /\
  Forall (fun x => length (dims x) = length (dims first) /\ put axis 0 (dims x) = put axis 0 (dims first)) rest.
Proof.
  intros E axis. unfold concat_layer in E. cbn [map] in E.
  destruct (infer_concat (dims first :: map dims rest) a) as [o|] eqn:Ei; [|discriminate]. cbn [obind] in E.
  destruct (normalize_axis (length (dims first)) a) as [ax|] eqn:Ea; [|discriminate].
  pose proof (proj1 (normalize_axis_ok _ _ _) Ea) as (V & ->). split; auto.
  pose proof (proj1 (infer_concat_ok (dims first) (map dims rest) a _ Ea) (ex_intro _ _ Ei)) as J.
  apply Forall_map in J. exact J.
Qed.

(** *** Tile *)
Lemma concat_repeat {T} axis (x : tensor T) r : well_formed x -> axis < length (dims x) -> 0 < axis_dim axis x -> r <> 0 ->
  exists y, concatenate axis (repeat x r) = Some y /\ well_formed y /\ dims y = put axis (axis_dim axis x * r) (dims x) /\
    forall c, in_range c (dims y) -> elem y c = elem x (put axis (nth axis c 0 mod axis_dim axis x) c).
Proof.
  intros W Ha Hd Hr. set (d := axis_dim axis x) in *.
  destruct (concatenate_ok axis (repeat x r) x) as (y & E & Wy & C & L & J); auto.
  { destruct r; [lia|reflexivity]. }
  { apply Forall_forall. intros z Hz. now apply repeat_spec in Hz as ->. }
  { apply Forall_forall. intros z Hz. apply repeat_spec in Hz as ->. split; auto. }
  exists y. split; auto. split; auto. destruct C as (Hy & Dy & C).
  assert (Sd : forall n, list_sum (map (axis_dim axis) (repeat x n)) = d * n).
  { intros n. replace (map (axis_dim axis) (repeat x n)) with (repeat d n); [rewrite list_sum_repeat; lia|].
    induction n as [|n IH]; cbn; [auto|now rewrite <- IH]. }
  rewrite Sd in Dy. destruct J as (_ & J).
  assert (Ed : dims y = put axis (d * r) (dims x)).
  { rewrite <- (put_same axis 0 (dims y)) by auto. change (nth axis (dims y) 0) with (axis_dim axis y). rewrite Dy.
    rewrite <- (put_put axis (d * r) 0 (dims x)) by auto. rewrite <- J. now rewrite put_put by auto. }
  split; auto. intros c R. apply in_range_nth in R. destruct R as (Lc & R). set (i := nth axis c 0).
  assert (Hi : i < d * r). { specialize (R axis Hy). fold (axis_dim axis y) in R. rewrite Dy in R. exact R. }
  pose proof (Nat.div_mod i d ltac:(lia)) as Em. pose proof (Nat.mod_upper_bound i d ltac:(lia)) as Hm.
  set (k := i / d) in *. assert (Hk : k < r) by nia.
  assert (Er : repeat x r = repeat x k ++ x :: repeat x (r - S k)).
  { replace r with (k + S (r - S k)) at 1 by lia. rewrite repeat_app. reflexivity. }
  destruct (C _ _ _ Er) as (_ & _ & Ce). rewrite Sd in Ce.
  assert (Rc : in_range (put axis (i mod d) c) (dims x)).
  { apply in_range_nth. rewrite put_length by lia. split; [lia|]. intros j Hj. rewrite put_nth by lia.
    destruct (Nat.eqb_spec j axis) as [->|N]; [exact Hm|]. specialize (R j ltac:(lia)). rewrite Ed, put_nth in R by auto.
    destruct (Nat.eqb_spec j axis); [contradiction|exact R]. }
  rewrite <- (Ce _ Rc). f_equal. unfold shift. rewrite put_put by lia. rewrite put_nth by lia. rewrite Nat.eqb_refl.
  replace (i mod d + d * k) with i by lia. unfold i. now rewrite put_same by lia.
Qed.
Lemma firstn_put {A} i (v : A) l : i < length l -> firstn i (put i v l) = firstn i l.
Proof.
  intros H. unfold put. rewrite firstn_app, firstn_firstn, Nat.min_id, firstn_length.
  replace (i - Nat.min i (length l)) with 0 by lia. cbn. apply app_nil_r.
Qed.
(** After the axes before [n], the dimensions and the coordinates read are those of the tiling on these axes. *)
Definition tile_dims (s r : list nat) n : list nat := map2 Nat.mul (firstn n s) (firstn n r) ++ skipn n s.
Definition tile_read (s c : list nat) n : list nat := map2 Nat.modulo (firstn n c) (firstn n s) ++ skipn n c.
Lemma combine_nth_firstn {A B} (l : list A) (m : list B) n : combine (firstn n l) (firstn n m) = firstn n (combine l m).
Proof. revert l m. induction n as [|n IH]; intros [|a l] [|b m]; cbn; auto. now rewrite IH. Qed.
Lemma map2_firstn {A B C} (f : A -> B -> C) l m n : map2 f (firstn n l) (firstn n m) = firstn n (map2 f l m).
Proof. unfold map2. rewrite combine_nth_firstn. now rewrite firstn_map. Qed.
Lemma mixed_length (l m : list nat) n : length l = length m -> length (firstn n l ++ skipn n m) = length m.
Proof. intros L. rewrite app_length, firstn_length, skipn_length. lia. Qed.
Lemma mixed_nth (l m : list nat) n i : length l = length m -> nth i (firstn n l ++ skipn n m) 0 = if i <? n then nth i l 0 else nth i m 0.
Proof.
  revert m n i. induction l as [|a l IH]; intros [|b m] n i L; cbn in L; try discriminate.
  - replace (firstn n (@nil nat) ++ skipn n []) with (@nil nat) by (destruct n; reflexivity). now destruct (i <? n), i.
  - destruct n as [|n]; [cbn; destruct i; reflexivity|]. destruct i as [|i]; [reflexivity|]. cbn [firstn skipn app nth].
    rewrite IH by lia. reflexivity.
Qed.
Lemma mixed_step (l m : list nat) n : length l = length m -> n < length m ->
  firstn (S n) l ++ skipn (S n) m = put n (nth n l 0) (firstn n l ++ skipn n m).
Proof.
  intros L H. apply (list_nth_ext 0).
  - rewrite put_length; rewrite !mixed_length; auto.
  - intros i Hi. rewrite put_nth by (rewrite mixed_length; auto). rewrite !mixed_nth by auto.
    destruct (Nat.eqb_spec i n) as [->|N]; [now rewrite (proj2 (Nat.ltb_lt n (S n))) by lia|].
    destruct (Nat.ltb_spec i (S n)), (Nat.ltb_spec i n); auto; lia.
Qed.
Theorem tile_loop {T} (x : tensor T) reps : well_formed x -> length reps = length (dims x) ->
  Forall (fun d => 0 < d) (dims x) -> Forall (fun r => r <> 0) reps ->
  exists y, for_each (enumerate reps) (fun '(ax, rep) result =>
    let* _ := guard (negb (rep =? 0)) in
    if rep =? 1 then Some result else concatenate ax (repeat result rep)) x = Some y /\ well_formed y /\ tiled reps x y.
Proof.
  intros W L Pd Pr. set (s := dims x) in *. set (R := length s).
  assert (Pd' : forall i, i < R -> 0 < nth i s 0) by (intros; rewrite Forall_forall in Pd; apply Pd, nth_In; auto).
  assert (Pr' : forall i, i < R -> nth i reps 0 <> 0) by (intros; rewrite Forall_forall in Pr; apply Pr, nth_In; lia).
  set (sr := map2 Nat.mul s reps). assert (Lsr : length sr = length s) by (unfold sr; now rewrite map2_length).
  destruct (for_each_rule (fun done (t : tensor T) => well_formed t /\ dims t = firstn (length done) sr ++ skipn (length done) s /\
      forall c, in_range c (dims t) -> elem t c = elem x (firstn (length done) (map2 Nat.modulo c s) ++ skipn (length done) c))
    (fun '(ax, rep) result =>
      let* _ := guard (negb (rep =? 0)) in
      if rep =? 1 then Some result else concatenate ax (repeat result rep)) (enumerate reps) x) as (y & E & Wy & Dy & Ey).
  - split; auto.
  - intros dn (ax & rep) rs t Er (Wt & Dt & Et).
    assert (Hn : length dn < R).
    { apply (f_equal (@length _)) in Er. rewrite enumerate_length, app_length in Er. cbn [length] in Er. unfold R. lia. }
    assert (Ex : nth_error (enumerate reps) (length dn) = Some (ax, rep)) by (rewrite Er; rewrite nth_error_app2, Nat.sub_diag by lia; reflexivity).
    set (n := length dn) in *. assert (Eax : ax = n /\ rep = nth n reps 0).
    { apply (nth_error_nth _ _ (0, 0)) in Ex. unfold enumerate in Ex. rewrite combine_nth in Ex by (now rewrite seq_length).
      rewrite seq_nth in Ex by (unfold R in Hn; lia). injection Ex as <- <-. auto. }
    destruct Eax as (-> & ->). assert (Lt : length (dims t) = R) by (rewrite Dt, mixed_length; auto).
    assert (Dn : axis_dim n t = nth n s 0). { unfold axis_dim. rewrite Dt, mixed_nth by auto. now rewrite Nat.ltb_irrefl. }
    specialize (Pr' n Hn). specialize (Pd' n Hn).
    rewrite (proj2 (Nat.eqb_neq _ _) Pr'). cbn [guard negb obind]. rewrite app_length. cbn [length]. fold n. replace (n + 1) with (S n) by lia.
    assert (Esr : nth n sr 0 = nth n s 0 * nth n reps 0) by (unfold sr; apply map2_nth; auto).
    assert (Step : forall t', dims t' = put n (nth n s 0 * nth n reps 0) (dims t) -> well_formed t' ->
        (forall c, in_range c (dims t') -> elem t' c = elem t (put n (nth n c 0 mod nth n s 0) c)) ->
        well_formed t' /\ dims t' = firstn (S n) sr ++ skipn (S n) s /\
        forall c, in_range c (dims t') -> elem t' c = elem x (firstn (S n) (map2 Nat.modulo c s) ++ skipn (S n) c)).
    { intros t' D' W' E'. split; auto. split; [rewrite D', Dt, mixed_step by auto; now rewrite Esr|].
      intros c Rc. rewrite E' by auto. pose proof (in_range_length _ _ Rc) as Lc. rewrite D', put_length in Lc by lia.
      rewrite Et.
      2:{ apply in_range_nth. rewrite put_length by lia. split; [lia|]. intros j Hj. rewrite put_nth by lia.
          destruct (Nat.eqb_spec j n) as [->|N].
          - fold (axis_dim n t). rewrite Dn. apply Nat.mod_upper_bound. lia.
          - apply in_range_nth in Rc. destruct Rc as (_ & Rc). rewrite D', put_length in Rc by lia. specialize (Rc j Hj).
            rewrite put_nth in Rc by lia. destruct (Nat.eqb_spec j n); [contradiction|exact Rc]. }
      f_equal. apply (list_nth_ext 0).
      - rewrite !mixed_length; rewrite ?map2_length, ?put_length; unfold R in *; try lia. rewrite put_length; lia.
      - intros i Hi. rewrite mixed_length in Hi by (rewrite map2_length, ?put_length; rewrite ?put_length; unfold R in *; lia).
        rewrite put_length in Hi by lia.
        rewrite !mixed_nth by (rewrite map2_length, ?put_length; rewrite ?put_length; unfold R in *; lia).
        rewrite !(map2_nth _ _ _ _ 0 0) by (rewrite ?put_length; unfold R in *; lia). rewrite !put_nth by lia.
        destruct (Nat.eqb_spec i n) as [->|N].
        + rewrite Nat.ltb_irrefl. now rewrite (proj2 (Nat.ltb_lt n (S n))) by lia.
        + destruct (Nat.ltb_spec i (S n)), (Nat.ltb_spec i n); auto; lia. }
    destruct (Nat.eqb_spec (nth n reps 0) 1) as [E1|N1].
    + exists t. split; auto. apply Step; auto.
      * rewrite E1, Nat.mul_1_r, <- Dn. unfold axis_dim. now rewrite put_same by lia.
      * intros c Rc. f_equal. pose proof (in_range_length _ _ Rc) as Lc. apply in_range_nth in Rc. destruct Rc as (_ & Rc).
        specialize (Rc n ltac:(lia)). fold (axis_dim n t) in Rc. rewrite Dn in Rc. rewrite Nat.mod_small by exact Rc.
        now rewrite put_same by lia.
    + destruct (concat_repeat n t (nth n reps 0) Wt) as (t' & E' & W' & D' & El); auto; try lia.
      exists t'. split; auto. rewrite Dn in *. apply Step; auto.
  - exists y. split; [exact E|]. split; auto. rewrite enumerate_length, L in *. fold R in Dy, Ey |- *.
    rewrite firstn_all2 in Dy by lia. rewrite skipn_all2 in Dy by (unfold R; lia). rewrite app_nil_r in Dy.
    split; [exact Dy|]. intros c Rc. rewrite Ey by auto. pose proof (in_range_length _ _ Rc) as Lc. rewrite Dy, Lsr in Lc.
    rewrite firstn_all2 by (rewrite map2_length; unfold R; lia). rewrite skipn_all2 by (unfold R; lia). now rewrite app_nil_r.
Qed.
