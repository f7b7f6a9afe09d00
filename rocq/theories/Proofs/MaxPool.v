(** MaxPool *)
From Coq Require Import List Arith Bool ZArith Znumtheory Lia.
From Verif Require Base.Array.
From Verif Require Import Spec.Numbers Spec.Shapes Spec.Tensors Spec.HonestProver Spec.Selection Spec.Conv Spec.ConvTranspose Spec.MaxPool
  Model.Builder Model.Gadgets Model.Selection Model.Conv Model.MaxPool Model.MaxPoolLayer
  Proofs.Builder Proofs.RangeCheck Proofs.Gadgets Proofs.RescaleArray Proofs.ArithmeticProps Proofs.Tensors
  Proofs.Conv Proofs.Conv2 Proofs.ConvLayer Proofs.ConvTranspose.
From Verif Require Proofs.Selection.
Import ListNotations.
Local Open Scope Z_scope.

(** *** The largest element of a list *)
Definition mx (l : list Z) : Z := fold_right Z.max (hd 0 l) l.
Lemma fold_max_ge a l : (forall x, In x l -> x <= fold_right Z.max a l) /\ a <= fold_right Z.max a l.
Proof.
  induction l as [|b l (IH & IH2)]; cbn [fold_right]; [split; [intros x []|lia]|].
  split; [|lia]. intros x [<-|I]; [lia|]. specialize (IH x I). lia.
Qed.
Lemma fold_max_in a l : fold_right Z.max a l = a \/ In (fold_right Z.max a l) l.
Proof.
  induction l as [|b l IH]; cbn [fold_right]; [now left|]. destruct (Z.max_spec b (fold_right Z.max a l)) as [(_ & ->)|(_ & ->)].
  - destruct IH as [IH|IH]; [now left|right; now right].
  - right. now left.
Qed.
Lemma mx_max l : l <> [] -> is_max l (mx l).
Proof.
  intros N. unfold mx, is_max. destruct l as [|a l]; [congruence|]. cbn [hd]. split.
  - destruct (fold_max_in a (a :: l)) as [->|I]; [now left|exact I].
  - apply fold_max_ge.
Qed.
Lemma is_max_mx l m : is_max l m -> m = mx l.
Proof.
  intros (I & G). assert (N : l <> []) by (intros ->; contradiction). destruct (mx_max l N) as (I' & G').
  specialize (G _ I'). specialize (G' _ I). lia.
Qed.

(** *** The rows under a window *)
Lemma step_by_taps b k d : (0 < d)%nat -> step_by b (b + Z.of_nat (k * d)) d = map (fun t => b + Z.of_nat t * Z.of_nat d) (seq 0 k).
Proof.
  intros Hd. unfold step_by. do 2 f_equal. replace (b + Z.of_nat (k * d) - b + Z.of_nat d - 1) with (Z.of_nat k * Z.of_nat d + (Z.of_nat d - 1)) by lia.
  rewrite Z.div_add_l, Z.div_small by lia. lia.
Qed.
Lemma in_taps k s d before size o i : (0 < d)%nat -> In i (taps k s d before size o) <-> covered k d s before size o i.
Proof.
  intros Hd. unfold taps. rewrite step_by_taps by auto. rewrite in_flat_map. unfold covered. split.
  - intros (h & I & J). apply in_map_iff in I as (t & <- & I). apply in_seq in I.
    destruct (_ && _) eqn:E; [|contradiction]. apply andb_true_iff in E as (E1 & E2). apply Z.leb_le in E1. apply Z.ltb_lt in E2.
    destruct J as [<-|[]]. split; [lia|]. exists t. split; lia.
  - intros (Hi & a & Ha & E). exists (Z.of_nat i). split.
    + apply in_map_iff. exists a. split; [lia|]. apply in_seq. lia.
    + rewrite (proj2 (Z.leb_le _ _)), (proj2 (Z.ltb_lt _ _)) by lia. cbn [andb]. left. now rewrite Nat2Z.id.
Qed.
Lemma pooled_size_ok d k s dil b a : (0 < k)%nat -> (0 < s)%nat -> ((k - 1) * dil + 1 <= d + b + a)%nat ->
  pooled_size d k s dil b a = Some (windows false d k dil b a s).
Proof.
  intros Hk Hs E. unfold pooled_size, windows. rewrite (proj2 (Nat.eqb_neq _ _)) by lia. cbn [negb Array.guard Array.obind].
  rewrite (proj2 (Nat.leb_le _ _)) by lia. cbn [Array.guard Array.obind]. rewrite (proj2 (Nat.eqb_neq _ _)) by lia. cbn [negb Array.guard Array.obind].
  now rewrite Nat.add_assoc.
Qed.
Definition pooling_of (P : pool) : pooling :=
  {| pk := (win_h P, win_w P); ps := (down (moves P), across (moves P)); pdl := (dil_h P, dil_w P);
     pp := ((top (moves P), bottom (moves P)), (left (moves P), right (moves P))) |}.
Lemma setup_ok a P ceil : mp_attributes a P ceil -> setup_params a = Some (pooling_of P).
Proof.
  intros (E1 & E2 & E3 & E4 & _). unfold setup_params. rewrite E1. cbn [Array.obind length].
  replace (match mp_pads a with Some v => v | None => repeat 0%nat (2 * 2) end) with [top (moves P); left (moves P); bottom (moves P); right (moves P)]
    by (destruct E3 as [->|(-> & E3)]; [reflexivity|now rewrite E3]).
  replace (match mp_dilations a with Some v => v | None => repeat 1%nat 2 end) with [dil_h P; dil_w P]
    by (destruct E4 as [->|(-> & E4)]; [reflexivity|now rewrite E4]).
  replace (match mp_strides a with Some v => v | None => repeat 1%nat 2 end) with [down (moves P); across (moves P)]
    by (destruct E2 as [->|(-> & E2)]; [reflexivity|now rewrite E2]).
  reflexivity.
Qed.

Section L.
Variable p : Z.
Variable P : pool.
Variable x : tensor Z.
Variables N C H W : nat.
Hypothesis WX : well_formed x.
Hypothesis DX : dims x = [N; C; H; W].
Hypothesis D0 : (0 < dil_h P)%nat.
Hypothesis D1 : (0 < dil_w P)%nat.

Definition rows (o : nat) : list nat := taps (win_h P) (down (moves P)) (dil_h P) (top (moves P)) H o.
Definition cols (o : nat) : list nat := taps (win_w P) (across (moves P)) (dil_w P) (left (moves P)) W o.
Definition vals (n c i j : nat) : list Z :=
  map (fun hw => plane x n c (Z.of_nat (fst hw)) (Z.of_nat (snd hw))) (list_prod (rows i) (cols j)).
Lemma plane_elem n c i j : (n < N)%nat -> (c < C)%nat -> (i < H)%nat -> (j < W)%nat ->
  elem x [n; c; i; j] = Some (plane x n c (Z.of_nat i) (Z.of_nat j)).
Proof.
  intros. destruct (elem_exists x [n; c; i; j] WX) as (v & E). { rewrite DX. repeat constructor; auto. }
  rewrite E. unfold plane. rewrite !(proj2 (Z.leb_le _ _)) by lia. cbn [andb]. now rewrite !Nat2Z.id, E.
Qed.
Lemma window_vals n c i j : (n < N)%nat -> (c < C)%nat -> window_values (pooling_of P) (encoded p x) H W n c i j = Some (map (enc p) (vals n c i j)).
Proof.
  intros Hn Hc. unfold window_values. cbn [pooling_of pk ps pdl pp fst snd]. fold (rows i) (cols j). unfold vals. rewrite map_map.
  apply omap_map. intros (h, w) I. apply in_prod_iff in I as (I & J). cbn [fst snd].
  apply in_taps in I as (I & _); auto. apply in_taps in J as (J & _); auto.
  rewrite Selection.encoded_elem, plane_elem by auto. reflexivity.
Qed.
Lemma vals_largest n c i j m : (n < N)%nat -> (c < C)%nat -> is_max (vals n c i j) m <-> largest_under P x H W n c i j m.
Proof.
  intros Hn Hc. unfold is_max, largest_under, vals.
  assert (RI : forall h, In h (rows i) <-> row_covered P H i h) by (intros; apply in_taps; auto).
  assert (CI : forall w, In w (cols j) <-> column_covered P W j w) by (intros; apply in_taps; auto).
  split; intros (A & B); split.
  - apply in_map_iff in A as ((h, w) & E & I). apply in_prod_iff in I as (I & J). apply RI in I. apply CI in J. cbn [fst snd] in E.
    exists h, w. split; [auto|]. split; [auto|]. rewrite plane_elem; [now rewrite E|auto..|apply I|apply J].
  - intros h w v I J E. apply B. apply in_map_iff. exists (h, w). cbn [fst snd].
    rewrite plane_elem in E; [|auto..|apply I|apply J]. injection E as E. split; auto. apply in_prod_iff. now rewrite RI, CI.
  - destruct A as (h & w & I & J & E). apply in_map_iff. exists (h, w). cbn [fst snd].
    rewrite plane_elem in E; [|auto..|apply I|apply J]. injection E as E. split; auto. apply in_prod_iff. now rewrite RI, CI.
  - intros v I. apply in_map_iff in I as ((h, w) & <- & I). apply in_prod_iff in I as (I & J). apply RI in I. apply CI in J. cbn [fst snd].
    apply (B h w); auto. apply plane_elem; auto; [apply I|apply J].
Qed.
Lemma vals_nonempty n c i j : (exists h, row_covered P H i h) -> (exists w, column_covered P W j w) -> vals n c i j <> [].
Proof.
  intros (h & I) (w & J). apply in_taps in I; auto. apply in_taps in J; auto. fold (rows i) in I. fold (cols j) in J. unfold vals.
  destruct (rows i); [contradiction|]. destruct (cols j); [contradiction|]. discriminate.
Qed.
Lemma vals_fit s n c i j : Forall (signed_fits s) (flat x) -> (n < N)%nat -> (c < C)%nat -> Forall (signed_fits s) (vals n c i j).
Proof.
  intros Fx Hn Hc. apply Forall_forall. intros v I. unfold vals in I. apply in_map_iff in I as ((h, w) & <- & I). apply in_prod_iff in I as (I & J).
  apply in_taps in I as (I & _); auto. apply in_taps in J as (J & _); auto. cbn [fst snd].
  pose proof (plane_elem n c h w Hn Hc I J) as E. unfold elem in E. destruct (in_rangeb _ _); [|discriminate].
  apply nth_error_In in E. rewrite Forall_forall in Fx. now apply Fx.
Qed.
Let d2 := windows false H (win_h P) (dil_h P) (top (moves P)) (bottom (moves P)) (down (moves P)).
Let d3 := windows false W (win_w P) (dil_w P) (left (moves P)) (right (moves P)) (across (moves P)).
Definition pvalue (k : nat * nat * nat * nat) : Z := let '(n, c, i, j) := k in mx (vals n c i j).
Lemma pooled_flat y : well_formed y -> max_pooled false P x y -> dims y = [N; C; d2; d3] /\ flat y = map pvalue (coords4 N C d2 d3).
Proof.
  intros WY (n & ch & h & w & DD & DY & E). rewrite DX in DD. injection DD as <- <- <- <-. unfold pool_shape in DY. rewrite DX in DY.
  split; auto. apply (flat4 y N C d2 d3); auto. intros c0 c1 c2 c3 R. destruct (E _ _ _ _ R) as (m & -> & G). f_equal.
  rewrite DY in R. repeat match goal with E : Shapes.in_range _ _ |- _ => unfold Shapes.in_range in E | E : Forall2 _ (_ :: _) _ |- _ => inversion E; clear E; subst end.
  apply is_max_mx. now apply vals_largest.
Qed.
Lemma pooled_exists : (forall o, (o < d2)%nat -> exists i, row_covered P H o i) -> (forall o, (o < d3)%nat -> exists j, column_covered P W o j) ->
  exists y, well_formed y /\ max_pooled false P x y.
Proof.
  intros T1 T2. exists {| dims := [N; C; d2; d3]; flat := map pvalue (coords4 N C d2 d3) |}. split.
  - unfold well_formed. cbn [dims flat]. rewrite map_length, coords4_length. unfold prod. cbn [fold_right]. lia.
  - exists N, C, H, W. split; [auto|]. cbn [dims]. split; [unfold pool_shape; now rewrite DX|].
    intros c0 c1 c2 c3 R. exists (pvalue (c0, c1, c2, c3)). rewrite elem_in by auto. cbn [dims flat].
    repeat match goal with E : Shapes.in_range _ _ |- _ => unfold Shapes.in_range in E | E : Forall2 _ (_ :: _) _ |- _ => inversion E; clear E; subst end.
    split; [|apply vals_largest; auto; apply mx_max, vals_nonempty; auto].
    replace (row_major [c0; c1; c2; c3] [N; C; d2; d3]) with (((c0 * C + c1) * d2 + c2) * d3 + c3)%nat
      by (unfold row_major; cbn [combine fold_left fst snd]; lia).
    rewrite nth_error_map. unfold coords4.
    pose proof (nth_error_list_prod (list_prod (list_prod (seq 0 N) (seq 0 C)) (seq 0 d2)) (seq 0 d3) ((c0 * C + c1) * d2 + c2) c3) as T.
    rewrite seq_length in T. rewrite T by lia. clear T.
    pose proof (nth_error_list_prod (list_prod (seq 0 N) (seq 0 C)) (seq 0 d2) (c0 * C + c1) c2) as T.
    rewrite seq_length in T. rewrite T by lia. clear T.
    pose proof (nth_error_list_prod (seq 0 N) (seq 0 C) c0 c1) as T.
    rewrite seq_length in T. rewrite T by lia. clear T.
    rewrite !nth_error_seq0 by lia. reflexivity.
Qed.
End L.

(** *** The layer *)
Lemma setup_maxpooling_ok a P ceil x N C H W : mp_attributes a P ceil -> pool_fits P x -> dims x = [N; C; H; W] ->
  setup_maxpooling a (dims x) = Some (pooling_of P, (N, C, H, W),
    (windows false H (win_h P) (dil_h P) (top (moves P)) (bottom (moves P)) (down (moves P)),
     windows false W (win_w P) (dil_w P) (left (moves P)) (right (moves P)) (across (moves P)))).
Proof.
  intros A (_ & S0 & S1 & D0 & D1 & K0 & K1 & n & ch & h & w & DX' & F1 & F2) DX. rewrite DX in DX'. injection DX' as <- <- <- <-.
  unfold setup_maxpooling. rewrite (setup_ok a P ceil A). cbn [Array.obind]. rewrite DX. cbn [pooling_of pk ps pdl pp fst snd].
  rewrite !(proj2 (Nat.eqb_neq _ _)) by lia. cbn [orb negb Array.guard Array.obind].
  rewrite !pooled_size_ok by auto. reflexivity.
Qed.

Section C.
Variables (p : Z) (c : nat) (F : nat -> list (list Z)) (s : nat).
Hypothesis Hp : prime p.
Hypothesis Hc : (0 < c)%nat.
Hypothesis Hs : (s < 64)%nat.
Hypothesis Ws : width_ok c (s + 1).
Hypothesis Big : 2 * 2 ^ Z.of_nat (s + 1) <= p.

Lemma pool_window_nonempty off vs : vs <> [] -> pool_window p c s off (map (enc p) vs) = constrained_max p c s off (map (enc p) vs).
Proof. destruct vs; [congruence|reflexivity]. Qed.

Lemma maxpool_layer_exact a P ceil x y out : ((s + 1) mod c = 0)%nat ->
  mp_attributes a P ceil -> pool_fits P x -> windows_touch P x -> Forall (signed_fits s) (flat x) ->
  well_formed y -> max_pooled false P x y ->
  accepts p (table_rows c F) (maxpool_layer p c a (s + 1) (encoded p x)) out <-> out = encoded p y.
Proof.
  intros M A FT (N & C & H & W & DX & T1 & T2) FX WY PY. unfold maxpool_layer. rewrite (proj2 (Nat.eqb_neq _ _)) by lia. rewrite Nat.add_sub.
  change (dims (encoded p x)) with (dims x). rewrite (setup_maxpooling_ok a P ceil x N C H W A FT DX). cbn [lift bind].
  rewrite shift_ctx_ok by auto. cbn [bind]. destruct FT as (WX & _ & _ & D0 & D1 & _).
  destruct (pooled_flat P x N C H W WX DX D0 D1 y WY PY) as (DY & FY).
  set (d2 := windows false H _ _ _ _ _) in *. set (d3 := windows false W _ _ _ _ _) in *.
  fold (coords4 N C d2 d3). rewrite accepts_bind.
  assert (CE : forall k b, In k (coords4 N C d2 d3) ->
    accepts p (table_rows c F) (let '(i0, i1, i2, i3) := k in
      let* vs := lift (window_values (pooling_of P) (encoded p x) H W i0 i1 i2 i3) in pool_window p c s (const p (pow2 s)) vs) b <->
    b = enc p (pvalue P x H W k)).
  { intros (((n, ch), i), j) b I. apply in_coords4 in I as (Hn & Hch & Hi & Hj).
    rewrite (window_vals p P x N C H W WX DX D0 D1) by auto. cbn [lift bind].
    assert (NE : vals P x H W n ch i j <> []) by (apply vals_nonempty; auto).
    rewrite pool_window_nonempty by auto.
    rewrite (max_exact p Hp c Hc F s Ws M Big) by (auto; apply (vals_fit P x N C H W); auto). split.
    - intros (m & IM & ->). apply is_max_mx in IM. now subst m.
    - intros ->. eexists. split; [apply mx_max; auto|reflexivity]. }
  assert (LE : forall bs, accepts p (table_rows c F) (mapM (fun k : nat * nat * nat * nat => let '(i0, i1, i2, i3) := k in
      let* vs := lift (window_values (pooling_of P) (encoded p x) H W i0 i1 i2 i3) in pool_window p c s (const p (pow2 s)) vs) (coords4 N C d2 d3)) bs <->
    bs = map (fun k => enc p (pvalue P x H W k)) (coords4 N C d2 d3)).
  { intros bs. rewrite accepts_mapM. revert bs CE. generalize (coords4 N C d2 d3). induction l as [|k l IH]; intros bs CE.
    - split; [intros Q; now inversion Q|intros ->; constructor].
    - split.
      + intros Q. inversion Q as [|k' b l' bs' Q1 Q2]; subst. cbn [map]. f_equal; [apply CE; auto; now left|]. apply IH; auto. intros; apply CE; now right.
      + intros ->. cbn [map]. constructor; [apply CE; auto; now left|]. apply IH; auto. intros; apply CE; now right. }
  split.
  - intros (bs & Q & Z0). apply LE in Q. cbn [accepts] in Z0. subst. unfold encoded. now rewrite DY, FY, map_map.
  - intros ->. eexists. split; [apply LE; reflexivity|]. cbn [accepts]. unfold encoded. now rewrite DY, FY, map_map.
Qed.
Lemma maxpool_layer_run a P ceil x y : 2 ^ Z.of_nat (rounded c (s + 1)) <= p ->
  mp_attributes a P ceil -> pool_fits P x -> windows_touch P x -> Forall (signed_fits s) (flat x) ->
  well_formed y -> max_pooled false P x y ->
  run honest_hint (table_rowsb c F) (maxpool_layer p c a (s + 1) (encoded p x)) = Some (encoded p y).
Proof.
  intros R A FT (N & C & H & W & DX & T1 & T2) FX WY PY. unfold maxpool_layer. rewrite (proj2 (Nat.eqb_neq _ _)) by lia. rewrite Nat.add_sub.
  change (dims (encoded p x)) with (dims x). rewrite (setup_maxpooling_ok a P ceil x N C H W A FT DX). cbn [lift bind].
  rewrite shift_ctx_ok by auto. cbn [bind]. destruct FT as (WX & _ & _ & D0 & D1 & _).
  destruct (pooled_flat P x N C H W WX DX D0 D1 y WY PY) as (DY & FY).
  set (d2 := windows false H _ _ _ _ _) in *. set (d3 := windows false W _ _ _ _ _) in *.
  fold (coords4 N C d2 d3). rewrite run_bind.
  rewrite (run_mapM _ _ _ _ _ (fun k => enc p (pvalue P x H W k))).
  - cbn [run]. unfold encoded. now rewrite DY, FY, map_map.
  - intros (((n, ch), i), j) I. apply in_coords4 in I as (Hn & Hch & Hi & Hj).
    rewrite (window_vals p P x N C H W WX DX D0 D1) by auto. cbn [lift bind].
    assert (NE : vals P x H W n ch i j <> []) by (apply vals_nonempty; auto).
    rewrite pool_window_nonempty by auto.
    destruct (max_run p Hp c Hc F s Ws R Big (vals P x H W n ch i j) NE) as (m & IM & E); [apply (vals_fit P x N C H W); auto|].
    apply is_max_mx in IM. subst m. exact E.
Qed.
End C.

Lemma max_pooled_exists P x : pool_fits P x -> windows_touch P x -> exists y, well_formed y /\ max_pooled false P x y.
Proof.
  intros (WX & _ & _ & D0 & D1 & _) (N & C & H & W & DX & T1 & T2). exact (pooled_exists P x N C H W WX DX D0 D1 T1 T2).
Qed.
(** Undilated windows padded as ONNX asks all touch the image *)
Lemma touch_axis k s d before after o : (0 < d)%nat -> (before < k)%nat -> (after < k)%nat -> (0 < s)%nat -> (k <= d + before + after)%nat ->
  (o < windows false d k 1 before after s)%nat -> exists i, covered k 1 s before d o i.
Proof.
  intros Hd Hb Ha Hs Hk Ho. unfold windows in Ho. replace ((k - 1) * 1 + 1)%nat with k in Ho by lia.
  assert (B : (o * s <= d + before + after - k)%nat).
  { pose proof (Nat.mul_div_le (d + before + after - k) s ltac:(lia)). nia. }
  exists (o * s - before)%nat. unfold covered. split; [lia|]. exists (before - o * s)%nat. split; lia.
Qed.
Lemma onnx_windows_touch P x : pool_fits P x -> dil_h P = 1%nat -> dil_w P = 1%nat -> padding_below_window P -> ~ In 0%nat (dims x) -> windows_touch P x.
Proof.
  intros (WX & S0 & S1 & _ & _ & K0 & K1 & n & ch & h & w & DX & F1 & F2) E1 E2 (P1 & P2 & P3 & P4) NZ.
  rewrite DX in NZ. cbn [In] in NZ. exists n, ch, h, w. split; auto. rewrite E1 in F1. rewrite E2 in F2. unfold row_covered, column_covered. rewrite E1, E2.
  split; intros o Ho; eapply touch_axis; eauto; lia.
Qed.

(** *** The shape *)
Lemma infer_maxpool_ok a P x : mp_attributes a P false -> pool_fits P x -> dil_h P = 1%nat -> dil_w P = 1%nat ->
  infer_maxpool a (dims x) = Some (pool_shape false P x).
Proof.
  intros (E1 & E2 & E3 & E4 & _) (WX & S0 & S1 & _ & _ & K0 & K1 & n & ch & h & w & DX & F1 & F2) Q1 Q2.
  unfold infer_maxpool, pool_shape. rewrite E1, DX, Q1, Q2. rewrite Q1 in F1. rewrite Q2 in F2. cbn [Array.obind existsb].
  rewrite !(proj2 (Nat.eqb_neq 0 _)) by lia. cbn [orb negb Array.guard Array.obind length].
  replace (match mp_pads a with Some v => v | None => repeat 0%nat (2 * 2) end) with [top (moves P); left (moves P); bottom (moves P); right (moves P)]
    by (destruct E3 as [->|(-> & E3)]; [reflexivity|now rewrite E3]).
  replace (match mp_strides a with Some v => v | None => repeat 1%nat 2 end) with [down (moves P); across (moves P)]
    by (destruct E2 as [->|(-> & E2)]; [reflexivity|now rewrite E2]).
  match goal with |- context [Array.omap ?f _] => set (G := f) end.
  cbn [length Nat.add Nat.mul Nat.ltb Nat.leb orb negb Array.guard Array.obind Array.aget nth_error seq Array.omap].
  unfold G. cbn [Nat.add Array.aget nth_error Array.obind].
  rewrite !(proj2 (Nat.eqb_neq _ _)) by lia. cbn [negb Array.guard Array.obind].
  rewrite !(proj2 (Nat.ltb_ge _ _)) by lia. cbn [negb Array.guard Array.obind]. unfold windows.
  rewrite !Nat.mul_1_r, !Nat.sub_add by lia. now rewrite !Nat.add_assoc.
Qed.

(** *** Witnesses: ceil_mode is read by neither, dilations by the layer only *)
Definition mp_plain (k s d : list nat) (ceil : bool) : mp_node :=
  {| mp_kernel := Some k; mp_strides := Some s; mp_pads := None; mp_dilations := Some d; mp_ceil_mode := ceil |}.
Definition column_pool (k s d : nat) : pool :=
  {| win_h := k; win_w := 1; dil_h := d; dil_w := 1; moves := {| down := s; across := 1; top := 0; left := 0; bottom := 0; right := 0 |} |}.
Lemma column_attributes k s d ceil : mp_attributes (mp_plain [k; 1]%nat [s; 1]%nat [d; 1]%nat ceil) (column_pool k s d) ceil.
Proof. split; [reflexivity|]. split; [now left|]. split; [right; now split|]. split; [now left|reflexivity]. Qed.
Lemma column_fits k s d l : (0 < k)%nat -> (0 < s)%nat -> (0 < d)%nat -> ((k - 1) * d + 1 <= length l)%nat ->
  pool_fits (column_pool k s d) (t4 [1; 1; length l; 1]%nat l).
Proof.
  intros. split; [unfold well_formed, t4, prod; cbn [dims flat fold_right]; lia|]. cbn. repeat (split; [lia|]). exists 1%nat, 1%nat, (length l), 1%nat. split; [reflexivity|]. lia.
Qed.
Lemma ceil_ignored : exists a P x, mp_attributes a P true /\ pool_fits P x /\ windows_touch P x /\
  pool_shape true P x = [1; 1; 2; 1]%nat /\ infer_maxpool a (dims x) = Some [1; 1; 1; 1]%nat /\
  forall p c n_bits T out, accepts p T (maxpool_layer p c a n_bits (encoded p x)) out -> dims out = [1; 1; 1; 1]%nat.
Proof.
  exists (mp_plain [3; 1]%nat [2; 1]%nat [1; 1]%nat true), (column_pool 3 2 1), (t4 [1; 1; 4; 1]%nat [1; 2; 3; 9]).
  split; [apply column_attributes|]. split; [apply (column_fits 3 2 1 [1; 2; 3; 9]); cbn; lia|].
  split.
  { exists 1%nat, 1%nat, 4%nat, 1%nat. split; [reflexivity|]. split; intros o Ho.
    - exists (o * 2)%nat. cbn in Ho. split; [lia|]. exists 0%nat. cbn. lia.
    - exists o. cbn in Ho. split; [lia|]. exists 0%nat. cbn. lia. }
  split; [reflexivity|]. split; [reflexivity|]. intros p c n_bits T out. unfold maxpool_layer. destruct (n_bits =? 0)%nat; [contradiction|].
  change (setup_maxpooling _ _) with (Some (pooling_of (column_pool 3 2 1), (1, 1, 4, 1)%nat, (1, 1)%nat)). cbn [lift bind].
  unfold shift_ctx. destruct (64 <=? _)%nat; [contradiction|]. cbn [bind]. rewrite accepts_bind. intros (bs & _ & E). cbn [accepts] in E. now subst.
Qed.
Lemma dilation_shape : exists a P x, mp_attributes a P false /\ pool_fits P x /\ windows_touch P x /\
  infer_maxpool a (dims x) = Some [1; 1; 2; 1]%nat /\
  forall p c n_bits T out, accepts p T (maxpool_layer p c a n_bits (encoded p x)) out -> dims out = [1; 1; 1; 1]%nat.
Proof.
  exists (mp_plain [2; 1]%nat [1; 1]%nat [2; 1]%nat false), (column_pool 2 1 2), (t4 [1; 1; 3; 1]%nat [5; 7; 6]).
  split; [apply column_attributes|]. split; [apply (column_fits 2 1 2 [5; 7; 6]); cbn; lia|].
  split.
  { exists 1%nat, 1%nat, 3%nat, 1%nat. split; [reflexivity|]. split; intros o Ho.
    - exists o. cbn in Ho. split; [lia|]. exists 0%nat. cbn. lia.
    - exists o. cbn in Ho. split; [lia|]. exists 0%nat. cbn. lia. }
  split; [reflexivity|]. intros p c n_bits T out. unfold maxpool_layer. destruct (n_bits =? 0)%nat; [contradiction|].
  change (setup_maxpooling _ _) with (Some (pooling_of (column_pool 2 1 2), (1, 1, 3, 1)%nat, (1, 1)%nat)). cbn [lift bind].
  unfold shift_ctx. destruct (64 <=? _)%nat; [contradiction|]. cbn [bind]. rewrite accepts_bind. intros (bs & _ & E). cbn [accepts] in E. now subst.
Qed.
(** A dilated window can miss the image although the padding is below the window *)
Definition missing_pool : pool :=
  {| win_h := 2; win_w := 1; dil_h := 3; dil_w := 1; moves := {| down := 1; across := 1; top := 1; left := 0; bottom := 1; right := 0 |} |}.
Definition missing_node : mp_node :=
  {| mp_kernel := Some [2; 1]%nat; mp_strides := None; mp_pads := Some [1; 0; 1; 0]%nat; mp_dilations := Some [3; 1]%nat; mp_ceil_mode := false |}.
Lemma missed_window : exists a P x, mp_attributes a P false /\ pool_fits P x /\ padding_below_window P /\ Forall (fun v => v < 0) (flat x) /\
  forall p c n_bits T out, accepts p T (maxpool_layer p c a n_bits (encoded p x)) out -> out = encoded p (t4 [1; 1; 1; 1]%nat [0]).
Proof.
  exists missing_node, missing_pool, (t4 [1; 1; 2; 1]%nat [-5; -7]).
  split. { split; [reflexivity|]. split; [right; now split|]. split; [now left|]. split; [now left|reflexivity]. }
  split. { split; [reflexivity|]. cbn. repeat (split; [lia|]). exists 1%nat, 1%nat, 2%nat, 1%nat. split; [reflexivity|]. lia. }
  split; [unfold padding_below_window; cbn; lia|]. split; [repeat constructor|].
  intros p c n_bits T out. unfold maxpool_layer. destruct (n_bits =? 0)%nat; [contradiction|].
  change (setup_maxpooling _ _) with (Some (pooling_of missing_pool, (1, 1, 2, 1)%nat, (1, 1)%nat)). cbn [lift bind].
  unfold shift_ctx. destruct (64 <=? _)%nat; [contradiction|]. cbn [bind]. rewrite accepts_bind. intros (bs & Q & E). cbn [accepts] in E. subst.
  cbn [seq list_prod map app] in Q. rewrite accepts_mapM in Q. inversion Q as [|k b l bs' Q1 Q2]; subst. inversion Q2; subst.
  change (window_values _ _ _ _ _ _ _ _) with (Some (@nil Z)) in Q1. cbn [lift bind pool_window accepts] in Q1. now subst.
Qed.
