(** GatherElements with computed indices. *)
From Coq Require Import ZArith List Bool Arith Znumtheory Lia.
From Verif Require Base.Array.
From Verif Require Import Spec.Numbers Spec.Shapes Spec.Tensors Spec.HonestProver Spec.Selection
  Model.Builder Model.Gadgets Model.Layers Model.Shapes Model.DataMovement Model.Selection
  Proofs.Builder Proofs.RangeCheck Proofs.Gadgets Proofs.Layers Proofs.HonestRun Proofs.Shapes Proofs.Tensors Proofs.DataMovement
  Proofs.DataMovement5 Proofs.DataMovement6 Proofs.Selection Proofs.Selection2 Proofs.Selection3.
Import ListNotations.
Local Open Scope Z_scope.

Lemma run_hdiv p inv G Tb A (m : prog A) a : run (honest_with G) Tb m = Some a -> run (honest_div p inv G) Tb m = Some a.
Proof.
  induction m as [b|cd|h ins n k IH|x y k IH|t row k IH]; cbn [run]; auto.
  - destruct (honest_with G h ins n) as [outs|] eqn:E; [|discriminate].
    assert (E' : honest_div p inv G h ins n = Some outs).
    { destruct h; auto. destruct ins as [|? [|? [|? ?]]]; auto; discriminate E. }
    rewrite E'. destruct (length outs =? n)%nat; [apply IH|discriminate].
  - destruct (x =? y); auto; discriminate.
  - destruct (Tb t row); auto; discriminate.
Qed.

Lemma run_mapM2 A B H Tb (f : A -> prog B) bs l : Forall2 (fun a b => run H Tb (f a) = Some b) l bs -> run H Tb (mapM f l) = Some bs.
Proof.
  induction 1 as [|a b l bs E F IH]; [reflexivity|]. cbn [mapM]. rewrite run_bind, E, run_bind, IH. reflexivity.
Qed.
Lemma Forall2_len {A B} (P : A -> B -> Prop) l m : Forall2 P l m -> length l = length m.
Proof. induction 1; cbn; auto. Qed.
Lemma Forall2_nth {A B} (P : A -> B -> Prop) l m : Forall2 P l m -> forall i a, nth_error l i = Some a -> exists b, nth_error m i = Some b /\ P a b.
Proof.
  induction 1 as [|a b l m H F IH]; intros [|i] x E; cbn in E; try discriminate.
  - injection E as <-. exists b. auto.
  - apply IH in E as (y & Ey & Hy). exists y. auto.
Qed.
(** The element of [xs], placed at [a], [a+1], ..., at the position [z]. *)
Fixpoint at_ (z a : Z) (xs : list Z) : Z :=
  match xs with [] => 0 | x :: r => (if z =? a then x else 0) + at_ z (a + 1) r end.
Lemma at_spec z xs : forall a, at_ z a xs = if (a <=? z) && (z <? a + zn (length xs)) then nth (Z.to_nat (z - a)) xs 0 else 0.
Proof.
  induction xs as [|x r IH]; intros a; cbn [at_ length].
  - destruct (Z.leb_spec a z); cbn [andb]; auto. destruct (Z.ltb_spec z (a + zn 0)); auto. unfold zn in *. lia.
  - rewrite IH. unfold zn. destruct (Z.eqb_spec z a) as [->|N].
    + rewrite (proj2 (Z.leb_gt (a + 1) a)) by lia. cbn [andb]. rewrite Z.leb_refl, (proj2 (Z.ltb_lt _ _)) by lia. cbn [andb].
      rewrite Z.sub_diag. cbn. lia.
    + destruct (Z.leb_spec (a + 1) z), (Z.leb_spec a z); cbn [andb]; try lia.
      destruct (Z.ltb_spec z (a + 1 + Z.of_nat (length r))), (Z.ltb_spec z (a + Z.of_nat (S (length r)))); try lia.
      replace (Z.to_nat (z - a)) with (S (Z.to_nat (z - (a + 1)))) by lia. cbn [nth]. lia.
Qed.

Section G.
Variable p : Z.
Hypothesis Hprime : prime p.

Lemma yields_mux z d xs : Z.abs z + d < p -> forall a s t, 0 <= a -> a + zn (length xs) <= d ->
  yields p (mux p (enc p z) (enc p (z + d)) a (map (enc p) xs) (enc p s) (enc p t))
    (enc p (s + at_ z a xs + at_ (z + d) a xs), enc p (t + at_ z a (map (fun _ => 1) xs) + at_ (z + d) a (map (fun _ => 1) xs))).
Proof.
  intros Hz. induction xs as [|x r IH]; intros a s t Ha Hl; cbn [mux map at_].
  - rewrite !Z.add_0_r. apply yields_ret.
  - cbn [length] in Hl. unfold zn in Hl. change (const p) with (enc p). rewrite !enc_sub.
    eapply yields_bind; [apply yields_is_zero; auto using enc_range|].
    eapply yields_bind; [apply yields_is_zero; auto using enc_range|].
    rewrite !eqb_enc by (auto; lia).
    assert (B : forall w : Z, (if w =? 0 then 1 else 0) = enc p (if w =? 0 then 1 else 0)).
    { intros w. destruct (w =? 0); symmetry; [now apply enc_1|apply enc_0]. }
    rewrite (B (z - a)), (B (z + d - a)). rewrite enc_add, enc_mul, !enc_add.
    match goal with |- yields _ (mux _ _ _ _ _ (enc p ?s') (enc p ?t')) ?v => 
      replace v with (enc p (s' + at_ z (a + 1) r + at_ (z + d) (a + 1) r),
        enc p (t' + at_ z (a + 1) (map (fun _ => 1) r) + at_ (z + d) (a + 1) (map (fun _ => 1) r))) end.
    + apply IH; [lia|]. unfold zn. lia.
    + destruct (Z.eqb_spec (z - a) 0), (Z.eqb_spec z a), (Z.eqb_spec (z + d - a) 0), (Z.eqb_spec (z + d) a); try lia; do 2 f_equal; lia.
Qed.

Lemma nth_ones (xs : list Z) k : (k < length xs)%nat -> nth k (map (fun _ => 1) xs) 0 = 1.
Proof. intros H. rewrite (nth_indep _ 0 1) by (now rewrite map_length). exact (map_nth (fun _ => 1) xs 0 k). Qed.
(** The sums of the multiplexer. *)
Lemma mux_sums z xs : xs <> [] -> let d := length xs in
  (valid_index d z -> at_ z 0 xs + at_ (z + zn d) 0 xs = nth (position d z) xs 0 /\
     at_ z 0 (map (fun _ => 1) xs) + at_ (z + zn d) 0 (map (fun _ => 1) xs) = 1) /\
  (~ valid_index d z -> at_ z 0 (map (fun _ => 1) xs) + at_ (z + zn d) 0 (map (fun _ => 1) xs) = 0).
Proof.
  intros N d. assert (0 < length xs)%nat by (destruct xs; [congruence|cbn; lia]). rewrite !at_spec, !map_length. fold d. unfold zn, valid_index, position, from_end in *.
  split; intros V.
  - destruct (Z.ltb_spec z 0).
    + rewrite (proj2 (Z.leb_gt 0 z)) by lia. cbn [andb]. rewrite (proj2 (Z.leb_le _ _)), (proj2 (Z.ltb_lt _ _)) by lia. cbn [andb].
      rewrite Z.sub_0_r. rewrite nth_ones by (fold d; lia). lia.
    + rewrite (proj2 (Z.leb_le _ _)), (proj2 (Z.ltb_lt _ _)) by lia. cbn [andb]. rewrite (proj2 (Z.ltb_ge (z + Z.of_nat d) _)) by lia.
      rewrite andb_false_r. rewrite Z.sub_0_r, nth_ones by (fold d; lia). lia.
  - destruct (Z.leb_spec 0 z), (Z.ltb_spec z (0 + Z.of_nat d)), (Z.leb_spec 0 (z + Z.of_nat d)), (Z.ltb_spec (z + Z.of_nat d) (0 + Z.of_nat d)); cbn [andb]; lia.
Qed.

Variable c : nat.
Hypothesis Hc : (0 < c)%nat.
Variable F : nat -> list (list Z).
Notation acc := (accepts p (table_rows c F)).
Variable nb : nat.
Hypothesis Hw : width_ok c nb.
Hypothesis Hr : pow2 (rounded c nb) <= p.
Definition in_field (e : Z) : Prop := pow2 nb - p <= e < p + pow2 nb - pow2 (rounded c nb).

Lemma position_nth z xs : valid_index (length xs) z -> nth_error xs (position (length xs) z) = Some (nth (position (length xs) z) xs 0).
Proof. intros V. apply nth_error_nth'. unfold valid_index, position, from_end in *. destruct (Z.ltb_spec z 0); lia. Qed.

Lemma ge_element_acc z xs o : xs <> [] -> Z.abs z + zn (length xs) < p -> Forall in_field xs ->
  acc (gather_dynamic_element p c nb (enc p z) (map (enc p) xs)) o <->
  valid_index (length xs) z /\ exists e, nth_error xs (position (length xs) z) = Some e /\ rci c nb e /\ o = enc p e.
Proof.
  intros N Hz Fx. pose proof (prime_ge_2 _ Hprime) as P2. unfold gather_dynamic_element. cbv zeta. rewrite map_length. change (const p) with (enc p).
  rewrite enc_add.
  assert (Y := yields_mux z (zn (length xs)) xs Hz 0 0 0 ltac:(lia) ltac:(lia)). cbn [Z.add] in Y.
  destruct (mux_sums z xs N) as (S1 & S0).
  split.
  - intros H. apply accepts_bind in H as (y & Hy & H). apply accepts_hint1 in Hy. apply accepts_bind in H as (sm & Hm & H).
    apply Y in Hm. subst sm. cbn [fst snd] in H. apply accepts_bind in H as ([] & E1 & H). apply accepts_assert_eq in E1.
    apply accepts_bind in H as ([] & E2 & H). apply accepts_assert_eq in E2. apply accepts_bind in H as ([] & E3 & H).
    apply accepts_ret in H. subst o.
    assert (V : valid_index (length xs) z).
    { destruct (Z_le_dec (- Z.of_nat (length xs)) z); [destruct (Z_lt_dec z (Z.of_nat (length xs)))|].
      - split; auto.
      - exfalso. rewrite S0, enc_0, enc_1 in E1 by (unfold valid_index; lia || auto). lia.
      - exfalso. rewrite S0, enc_0, enc_1 in E1 by (unfold valid_index; lia || auto). lia. }
    split; auto. destruct (S1 V) as (Ev & _). rewrite Ev in E2. rewrite position_nth by auto. eexists. split; [reflexivity|].
    split; [|exact E2]. rewrite E2 in E3.
    pose proof (nth_error_In _ _ (position_nth z xs V)) as HI.
    rewrite Forall_forall in Fx. specialize (Fx _ HI). apply (rc_int p Hprime c Hc F nb _ Hw Fx Hr). exact E3.
  - intros (V & e & Ee & Re & ->). destruct (S1 V) as (Ev & E1). rewrite position_nth in Ee by auto. injection Ee as <-.
    apply accepts_bind. exists (enc p (nth (position (length xs) z) xs 0)). split; [apply accepts_hint1; now apply enc_range|].
    apply accepts_bind. eexists. split; [apply Y; reflexivity|]. cbn [fst snd]. rewrite Ev, E1.
    apply accepts_bind. exists tt. split; [now apply accepts_assert_eq|]. apply accepts_bind. exists tt. split; [now apply accepts_assert_eq|].
    apply accepts_bind. exists tt. split; [|now apply accepts_ret].
    pose proof (nth_error_In _ _ (position_nth z xs V)) as HI.
    rewrite Forall_forall in Fx. specialize (Fx _ HI). apply (rc_int p Hprime c Hc F nb _ Hw Fx Hr). exact Re.
Qed.

(** The hint returns the element asked for. *)
Lemma ge_hint z xs : xs <> [] -> 2 * zn (length xs) < p -> valid_index (length xs) z ->
  gather_elements_hint p (enc p (zn (length xs)) :: enc p z :: map (enc p) xs) 1 = Some [enc p (nth (position (length xs) z) xs 0)].
Proof.
  intros N Hd V. pose proof (prime_ge_2 _ Hprime) as P2. unfold gather_elements_hint. rewrite map_length.
  assert (L : (0 < length xs)%nat) by (destruct xs; [congruence|cbn; lia]). rewrite (proj2 (Nat.eqb_neq _ 0)) by lia.
  unfold valid_index, position, from_end, zn in *.
  assert (Ed : enc p (Z.of_nat (length xs)) = Z.of_nat (length xs)) by (unfold enc; apply Z.mod_small; lia).
  pose proof (Z.mul_div_le p 2 ltac:(lia)) as D1. pose proof (Z.mul_succ_div_gt p 2 ltac:(lia)) as D2.
  rewrite Ed. rewrite (proj2 (Z.ltb_ge (p / 2) (Z.of_nat (length xs)))) by lia. cbv zeta.
  destruct (Z.ltb_spec z 0).
  - assert (Ez : enc p z = p + z). { unfold enc. rewrite <- (Z.mod_small (p + z) p) by lia. rewrite <- (Z_mod_plus_full z 1 p). f_equal. lia. }
    rewrite Ez. rewrite (proj2 (Z.ltb_lt (p / 2) (p + z))) by lia. replace (p + z - p) with z by lia.
    rewrite (proj2 (Z.ltb_lt z 0)) by lia. rewrite (proj2 (Z.ltb_ge (z + _) 0)), (proj2 (Z.leb_gt _ (z + _))) by lia. cbn [orb].
    rewrite nth_error_map, (nth_error_nth' _ 0) by lia. reflexivity.
  - assert (Ez : enc p z = z) by (unfold enc; apply Z.mod_small; lia).
    rewrite Ez. rewrite (proj2 (Z.ltb_ge (p / 2) z)) by lia.
    rewrite !(proj2 (Z.ltb_ge z 0)) by lia. cbv iota. rewrite ?(proj2 (Z.ltb_ge z 0)), (proj2 (Z.leb_gt _ z)) by lia. cbn [orb].
    rewrite nth_error_map, (nth_error_nth' _ 0) by lia. reflexivity.
Qed.
Lemma ge_element_run inv G z xs e : inverses p inv -> (forall ins, G 40%nat ins 1%nat = gather_elements_hint p ins 1) ->
  xs <> [] -> 2 * zn (length xs) < p -> valid_index (length xs) z ->
  nth_error xs (position (length xs) z) = Some e -> rci c nb e ->
  run (honest_div p inv G) (table_rowsb c F) (gather_dynamic_element p c nb (enc p z) (map (enc p) xs)) = Some (enc p e).
Proof.
  intros Hi HG N Hd V Ee Re. unfold gather_dynamic_element. cbv zeta. rewrite map_length. change (const p) with (enc p).
  rewrite position_nth in Ee by auto. injection Ee as <-.
  rewrite enc_add. rewrite run_bind. unfold hint1 at 1. cbn [run honest_div honest_with]. rewrite HG, ge_hint by auto. cbn [length Nat.eqb hd].
  assert (Hz : Z.abs z + zn (length xs) < p) by (unfold valid_index, zn in *; lia).
  assert (Y := yields_mux z (zn (length xs)) xs Hz 0 0 0 ltac:(lia) ltac:(lia)). cbn [Z.add] in Y.
  destruct (mux_sums z xs N) as (S1 & _). destruct (S1 V) as (Ev & E1). rewrite Ev, E1 in Y.
  rewrite run_bind, (proj2 Y inv G _ Hi). cbn [fst snd]. rewrite run_bind. cbn [assert_eq run]. rewrite Z.eqb_refl.
  rewrite run_bind. cbn [assert_eq run]. rewrite Z.eqb_refl. rewrite run_bind, (run_hdiv _ _ _ _ _ _ tt); [reflexivity|].
  apply rn_rc; auto.
Qed.

Lemma combine_nth_some {A B} (l : list A) (m : list B) i a b : nth_error l i = Some a -> nth_error m i = Some b ->
  nth_error (combine l m) i = Some (a, b).
Proof.
  revert m i. induction l as [|y l IH]; intros [|w m] [|i]; cbn; try discriminate; auto. congruence.
Qed.
(** *** The layer *)
Variables (raw : Z) (idx x : tensor Z).
Hypothesis Wx : well_formed x. Hypothesis Wi : well_formed idx.
Hypothesis V : valid_axis (Z.of_nat (length (dims x))) raw.
Hypothesis L : length (dims idx) = length (dims x).
Let axis := axis_position (Z.of_nat (length (dims x))) raw.
Let d := axis_dim axis x.
Hypothesis Hd : d <> O.
Hypothesis Le : forall k, (k < length (dims x))%nat -> k <> axis -> (nth k (dims idx) 0 <= nth k (dims x) 0)%nat.
Let slice (cc : list nat) : list Z := map (fun a => nth (row_major (put axis a cc) (dims x)) (flat x) 0) (seq 0 d).
Lemma slice_length cc : length (slice cc) = d.
Proof. unfold slice. now rewrite map_length, seq_length. Qed.
Lemma put_in cc a : in_range cc (dims idx) -> (a < d)%nat -> in_range (put axis a cc) (dims x).
Proof.
  intros R Ha. pose proof (axis_position_lt _ _ V) as Hax. fold axis in Hax. pose proof (in_range_length _ _ R) as Lo. apply in_range_nth in R. destruct R as (_ & R).
  apply in_range_nth. rewrite put_length by lia. split; [lia|]. intros i Hi. rewrite put_nth by lia. destruct (Nat.eqb_spec i axis) as [->|N].
  - exact Ha.
  - specialize (R i ltac:(lia)). specialize (Le i Hi N). lia.
Qed.
Lemma slice_elem cc a : in_range cc (dims idx) -> (a < d)%nat -> nth_error (slice cc) a = elem x (put axis a cc).
Proof.
  intros R Ha. pose proof (put_in cc a R Ha) as Rp. pose proof (row_major_lt _ _ Rp) as Lt. rewrite (elem_in x) by auto.
  unfold slice. rewrite nth_error_map, seq_nth_error by auto. cbn [option_map Nat.add]. symmetry. apply nth_error_nth'. unfold well_formed in Wx. lia.
Qed.
Lemma slice_in cc e : in_range cc (dims idx) -> In e (slice cc) -> In e (flat x).
Proof.
  intros R H. unfold slice in H. apply in_map_iff in H as (a & <- & Ha). apply in_seq in Ha. apply nth_In.
  pose proof (row_major_lt _ _ (put_in cc a R ltac:(lia))). unfold well_formed in Wx. lia.
Qed.

(** The layer is the element program at every output position. *)
Lemma ge_layer : exists slices, gather_slices (dims x) axis (dims idx) = Some slices /\ length slices = prod (dims idx) /\
  forall cc, in_range cc (dims idx) -> exists z ps, elem idx cc = Some z /\ nth_error (flat idx) (row_major cc (dims idx)) = Some z /\
    nth_error (combine (flat (encoded p idx)) slices) (row_major cc (dims idx)) = Some (enc p z, ps) /\
    yields p (mapM (get (flat (encoded p x))) ps) (map (enc p) (slice cc)).
Proof.
  pose proof (axis_position_lt _ _ V) as Hax. fold axis in Hax.
  destruct (gather_slices_ok (dims x) axis (dims idx) L Hax Hd) as (sl & E & Ls & N). exists sl. split; auto. split; auto.
  intros cc R. destruct (elem_exists idx cc Wi R) as (z & Ez). exists z. eexists. split; [exact Ez|]. rewrite elem_in in Ez by auto. split; [exact Ez|]. split.
  - erewrite (combine_nth_some _ _ _ (enc p z)); [reflexivity| |apply N; auto]. cbn [flat encoded]. now rewrite nth_error_map, Ez.
  - apply yields_mapM2. change (nth axis (dims x) 0%nat) with d. unfold slice. rewrite map_map.
    apply (Forall2_nth_intro _ O 0); [now rewrite !map_length|]. rewrite map_length, seq_length. intros a Ha. rewrite nth_map_seq by auto.
    apply yields_lift. cbn [flat encoded]. rewrite nth_error_map.
    rewrite (nth_indep _ 0 (enc p (nth (row_major (put axis 0%nat cc) (dims x)) (flat x) 0))) by (rewrite map_length, seq_length; auto).
    rewrite (map_nth (fun a0 => enc p (nth (row_major (put axis a0 cc) (dims x)) (flat x) 0)) (seq 0 d) O a), seq_nth by auto. cbn [Nat.add].
    pose proof (row_major_lt _ _ (put_in cc a R Ha)) as Lt. unfold well_formed in Wx. rewrite (nth_error_nth' _ 0) by lia. reflexivity.
Qed.

Lemma rm_cover i : (i < prod (dims idx))%nat -> exists cc, in_range cc (dims idx) /\ row_major cc (dims idx) = i.
Proof. intros H. destruct (unravel_ok i _ H) as (cc & _ & R & E). eauto. Qed.
Lemma wanted cc z : in_range cc (dims idx) -> valid_index d z -> exists e, nth_error (slice cc) (position d z) = Some e /\
  elem x (put axis (position d z) cc) = Some e /\ In e (flat x).
Proof.
  intros R Vz. assert (Hp : (position d z < d)%nat) by (unfold position, from_end, valid_index in *; destruct (Z.ltb_spec z 0); lia).
  pose proof (slice_elem cc _ R Hp) as E. destruct (elem_exists x _ Wx (put_in cc _ R Hp)) as (e & Ee). exists e. rewrite E. split; auto. split; auto.
  now apply (elem_In x _ _ Ee).
Qed.

Theorem ge_layer_acc o : Forall (fun z => Z.abs z + zn d < p) (flat idx) -> Forall in_field (flat x) ->
  acc (gather_elements_dynamic p c nb raw (encoded p idx) (encoded p x)) o <->
  Forall (valid_index d) (flat idx) /\ exists out, well_formed out /\ elements_gathered axis idx x out /\ Forall (rci c nb) (flat out) /\ o = encoded p out.
Proof.
  intros Bi Bx. destruct ge_layer as (sl & Es & Ls & H). unfold well_formed in Wi.
  assert (El : length (combine (flat (encoded p idx)) sl) = prod (dims idx)).
  { rewrite combine_length. cbn [flat encoded]. rewrite map_length, Wi, Ls. lia. }
  set (prg := fun '(i0, ps) => bind (mapM (get (flat (encoded p x))) ps) (gather_dynamic_element p c nb i0)).
  assert (P : forall cc z ps, in_range cc (dims idx) -> In z (flat idx) -> yields p (mapM (get (flat (encoded p x))) ps) (map (enc p) (slice cc)) ->
    forall v, acc (prg (enc p z, ps)) v <-> valid_index d z /\ exists e, elem x (put axis (position d z) cc) = Some e /\ rci c nb e /\ v = enc p e).
  { intros cc z ps R Hz Y v. unfold prg.
    assert (N : slice cc <> []). { intros E. apply Hd. rewrite <- (slice_length cc), E. reflexivity. }
    assert (Hz' : Z.abs z + zn (length (slice cc)) < p) by (rewrite slice_length; rewrite Forall_forall in Bi; auto).
    assert (Fs : Forall in_field (slice cc)). { rewrite Forall_forall in *. intros e He. apply Bx. now apply (slice_in cc). }
    pose proof (ge_element_acc z (slice cc) v N Hz' Fs) as A. rewrite slice_length in A. rewrite accepts_bind. split.
    - intros (s0 & Hs & Hv). apply Y in Hs. subst s0. apply A in Hv as (Vz & e & Ee & Q). split; auto. exists e.
      destruct (wanted cc z R Vz) as (e' & E1 & E2 & _). rewrite E1 in Ee. injection Ee as ->. auto.
    - intros (Vz & e & Ee & Q). exists (map (enc p) (slice cc)). split; [now apply Y|]. apply A. split; auto. exists e.
      destruct (wanted cc z R Vz) as (e' & E1 & E2 & _). rewrite E2 in Ee. injection Ee as ->. auto. }
  unfold gather_elements_dynamic. cbn [dims encoded]. rewrite (proj2 (normalize_axis_ok _ _ axis)) by (split; auto). cbn [lift bind]. rewrite Es. cbn [lift bind].
  rewrite accepts_bind. fold prg. split.
  - intros (outs & Ho & Hf). apply accepts_mapM in Ho. pose proof (Forall2_len _ _ _ Ho) as Lo. rewrite El in Lo.
    assert (Q : forall cc, in_range cc (dims idx) -> exists z e, elem idx cc = Some z /\ valid_index d z /\
      elem x (put axis (position d z) cc) = Some e /\ rci c nb e /\ nth_error outs (row_major cc (dims idx)) = Some (enc p e)).
    { intros cc R. destruct (H cc R) as (z & ps & Ez & Nz & Nc & Y). destruct (Forall2_nth _ _ _ Ho _ _ Nc) as (v & Nv & Hv).
      apply (P cc z ps R (nth_error_In _ _ Nz) Y) in Hv as (Vz & e & Ee & Re & ->). exists z, e. auto. }
    assert (Va : Forall (valid_index d) (flat idx)).
    { apply Forall_forall. intros z Hz. apply In_nth_error in Hz as (i & Hi). assert (i < prod (dims idx))%nat by (rewrite <- Wi; apply nth_error_Some; congruence).
      destruct (rm_cover i) as (cc & R & <-); auto. destruct (Q cc R) as (z' & e & Ez & Vz & _). rewrite elem_in in Ez by auto. congruence. }
    split; auto. destruct (gather_elements_result raw idx x Wx Wi V L Le Va) as (out & _ & Wo & (Do & Eo)). fold axis d in Eo.
    exists out. split; auto. split; [split; auto|].
    assert (Q2 : forall i, (i < prod (dims idx))%nat -> exists e, nth_error (flat out) i = Some e /\ rci c nb e /\ nth_error outs i = Some (enc p e)).
    { intros i Hi. destruct (rm_cover i Hi) as (cc & R & <-). destruct (Q cc R) as (z & e & Ez & Vz & Ee & Re & Ne). exists e. split; auto.
      rewrite <- Do. rewrite <- elem_in by (now rewrite Do). rewrite (Eo cc z Ez). exact Ee. }
    unfold well_formed in Wo. rewrite Do in Wo. split.
    + apply Forall_forall. intros e He. apply In_nth_error in He as (i & Hi). assert (i < prod (dims idx))%nat by (rewrite <- Wo; apply nth_error_Some; congruence).
      destruct (Q2 i) as (e' & Ee & Re & _); auto. congruence.
    + unfold from_shape_vec in Hf. rewrite <- Lo, Nat.eqb_refl in Hf. cbn in Hf. subst o. unfold encoded. rewrite Do. f_equal.
      apply Base.Array.nth_error_ext'. intros i. rewrite nth_error_map. destruct (Nat.lt_ge_cases i (prod (dims idx))) as [Hi|Hi].
      * destruct (Q2 i Hi) as (e & -> & _ & ->). reflexivity.
      * rewrite (proj2 (nth_error_None outs i)), (proj2 (nth_error_None (flat out) i)) by lia. reflexivity.
  - intros (Va & out & Wo & (Do & Eo) & Ro & ->). exists (map (enc p) (flat out)). unfold well_formed in Wo. rewrite Do in Wo. split.
    + apply accepts_mapM. apply (Forall2_nth_intro _ (0, []) 0); [now rewrite El, map_length, Wo|]. rewrite El. intros i Hi.
      destruct (rm_cover i Hi) as (cc & R & <-). destruct (H cc R) as (z & ps & Ez & Nz & Nc & Y). rewrite (nth_error_nth _ _ _ Nc).
      apply (P cc z ps R (nth_error_In _ _ Nz) Y). rewrite Forall_forall in Va. pose proof (Va z (nth_error_In _ _ Nz)) as Vz. split; auto.
      destruct (wanted cc z R Vz) as (e & _ & E2 & _). exists e. split; auto. fold d in Eo. specialize (Eo cc z Ez). fold d in Eo. rewrite E2 in Eo.
      rewrite elem_in in Eo by (now rewrite Do). rewrite Do in Eo. split.
      * rewrite Forall_forall in Ro. apply Ro. now apply (nth_error_In _ _ Eo).
      * apply nth_error_nth. rewrite nth_error_map, Eo. reflexivity.
    + unfold from_shape_vec. rewrite map_length, Wo, Nat.eqb_refl. cbn. unfold encoded. now rewrite Do.
Qed.
Theorem ge_layer_run inv G out : inverses p inv -> (forall ins, G 40%nat ins 1%nat = gather_elements_hint p ins 1) -> 2 * zn d < p ->
  Forall (valid_index d) (flat idx) -> well_formed out -> elements_gathered axis idx x out -> Forall (rci c nb) (flat out) ->
  run (honest_div p inv G) (table_rowsb c F) (gather_elements_dynamic p c nb raw (encoded p idx) (encoded p x)) = Some (encoded p out).
Proof.
  intros Hi HG Hd2 Va Wo (Do & Eo) Ro. destruct ge_layer as (sl & Es & Ls & H). unfold well_formed in Wi.
  assert (El : length (combine (flat (encoded p idx)) sl) = prod (dims idx)).
  { rewrite combine_length. cbn [flat encoded]. rewrite map_length, Wi, Ls. lia. }
  unfold gather_elements_dynamic. cbn [dims encoded]. rewrite (proj2 (normalize_axis_ok _ _ axis)) by (split; auto). cbn [lift bind]. rewrite Es. cbn [lift bind].
  rewrite run_bind. unfold well_formed in Wo. rewrite Do in Wo. rewrite (run_mapM2 _ _ _ _ _ (map (enc p) (flat out))).
  - unfold from_shape_vec. rewrite map_length, Wo, Nat.eqb_refl. cbn. unfold encoded. now rewrite Do.
  - apply (Forall2_nth_intro _ (0, []) 0); [now rewrite El, map_length, Wo|]. rewrite El. intros i Hi'.
    destruct (rm_cover i Hi') as (cc & R & <-). destruct (H cc R) as (z & ps & Ez & Nz & Nc & Y). rewrite (nth_error_nth _ _ _ Nc).
    rewrite run_bind, (proj2 Y inv G _ Hi). rewrite Forall_forall in Va. pose proof (Va z (nth_error_In _ _ Nz)) as Vz.
    destruct (wanted cc z R Vz) as (e & E1 & E2 & _). specialize (Eo cc z Ez). fold d in Eo. rewrite E2 in Eo.
    rewrite elem_in in Eo by (now rewrite Do). rewrite Do in Eo.
    erewrite (nth_error_nth (map _ _)) by (rewrite nth_error_map, Eo; reflexivity).
    apply ge_element_run; auto.
    + intros E. apply Hd. rewrite <- (slice_length cc), E. reflexivity.
    + now rewrite slice_length.
    + now rewrite slice_length.
    + now rewrite slice_length.
    + rewrite Forall_forall in Ro. apply Ro. now apply (nth_error_In _ _ Eo).
Qed.
End G.
