(** The statements of Properties/DataMovement, assembled. *)
From Coq Require Import List Arith Bool ZArith Lia.
From Verif Require Import Base.Array Spec.Shapes Spec.Tensors Model.Shapes Model.DataMovement Proofs.Shapes Proofs.Tensors
  Proofs.DataMovement Proofs.DataMovement2 Proofs.DataMovement3 Proofs.DataMovement4 Proofs.DataMovement5 Proofs.DataMovement6 Proofs.DataMovement7 Proofs.DataMovement8.
Import ListNotations.
Local Open Scope list_scope.
Local Notation ten d l := {| dims := d; flat := l |}.

Theorem transpose_exact_holds {T} perm (x : tensor T) : well_formed x ->
  ((exists y, transpose perm x = Some y) <-> exists p, perm_of (length (dims x)) perm p /\ permutation_of (length (dims x)) p) /\
  forall y, transpose perm x = Some y ->
    exists p, perm_of (length (dims x)) perm p /\ permutation_of (length (dims x)) p /\ well_formed y /\ transposed p x y.
Proof.
  intros W. split; [|intros y; now apply transpose_only]. split.
  - intros (y & E). destruct (transpose_only _ _ _ W E) as (p & ? & ? & _). eauto.
  - intros (p & Hp & P). destruct (transpose_result perm x p W Hp P) as (y & E & _). eauto.
Qed.
Theorem slice_complete_fails : ~ (forall T starts ends axes_in steps_in (x : tensor T),
  let axes := slice_axes (length starts) axes_in in
  let steps := slice_steps (length starts) steps_in in
  let pos := axis_position (Z.of_nat (length (dims x))) in
  well_formed x -> length ends = length starts -> length axes = length starts -> length steps = length starts ->
  Forall (valid_axis (Z.of_nat (length (dims x)))) axes -> NoDup (map pos axes) -> Forall (fun z => z <> 0%Z) steps ->
  exists y ranges, slice starts ends axes_in steps_in x = Some y /\
    slice_ranges (dims x) (map pos axes) starts ends steps ranges /\ selected ranges x y).
Proof.
  intros H. destruct (H Z [-1]%Z [-4]%Z (Some [0]%Z) (Some [-1]%Z) (ten [3] [7; 8; 9]%Z)) as (y & r & E & _).
  1-4: reflexivity.
  - repeat constructor; cbn; lia.
  - repeat constructor; cbn; auto.
  - repeat constructor. discriminate.
  - vm_compute in E. discriminate.
Qed.
Theorem slice_exact_holds {T} starts ends axes_in steps_in (x : tensor T) :
  let axes := slice_axes (length starts) axes_in in
  let steps := slice_steps (length starts) steps_in in
  let pos := axis_position (Z.of_nat (length (dims x))) in
  well_formed x -> NoDup (map pos axes) ->
  ((exists y, slice starts ends axes_in steps_in x = Some y) <->
    length ends = length starts /\ length axes = length starts /\ length steps = length starts /\
    Forall (valid_axis (Z.of_nat (length (dims x)))) axes /\ Forall (fun z => (0 < z)%Z) steps) /\
  forall y, slice starts ends axes_in steps_in x = Some y -> well_formed y /\ exists ranges,
    slice_ranges (dims x) (map pos axes) starts ends steps ranges /\ selected ranges x y.
Proof.
  intros axes steps pos W N. split.
  - split.
    + intros (y & E). exact (slice_only _ _ _ _ _ _ E).
    + intros (L1 & L2 & L3 & V & P). destruct (slice_result starts ends axes_in steps_in x W L1 L2 L3 V N P) as (y & r & E & _). eauto.
  - intros y E. destruct (slice_only _ _ _ _ _ _ E) as (L1 & L2 & L3 & V & P).
    destruct (slice_result starts ends axes_in steps_in x W L1 L2 L3 V N P) as (y' & r & E' & Wy & H). rewrite E in E'. injection E' as <-. eauto.
Qed.
Theorem concat_exact_holds {T} a (first : tensor T) rest : Forall well_formed (first :: rest) ->
  let rank := length (dims first) in
  let axis := axis_position (Z.of_nat rank) a in
  ((exists y, concat_layer a (first :: rest) = Some y) <->
    valid_axis (Z.of_nat rank) a /\
    Forall (fun x => length (dims x) = rank /\ put axis 0 (dims x) = put axis 0 (dims first)) rest) /\
  forall y, concat_layer a (first :: rest) = Some y -> well_formed y /\ concatenated axis (first :: rest) y.
Proof.
  intros W rank axis. split.
  - split; [intros (y & E); exact (concat_only _ _ _ _ E)|]. intros (V & J). destruct (concat_result a first rest W V J) as (y & E & _). eauto.
  - intros y E. destruct (concat_only _ _ _ _ E) as (V & J). destruct (concat_result a first rest W V J) as (y' & E' & H).
    rewrite E in E'. now injection E' as <-.
Qed.
Theorem split_exact_holds {T} a sizes n (x : tensor T) : well_formed x ->
  let rank := length (dims x) in
  let axis := axis_position (Z.of_nat rank) a in
  ((exists ys, split a sizes n x = Some ys) <->
    n <> 0 /\ valid_axis (Z.of_nat rank) a /\ exists szs, split_sizes_of (axis_dim axis x) sizes n szs) /\
  forall ys, split a sizes n x = Some ys -> Forall well_formed ys /\ length ys = n /\
    split_sizes_of (axis_dim axis x) sizes n (map (axis_dim axis) ys) /\ concatenated axis ys x.
Proof.
  intros W rank axis. split.
  - split; [intros (ys & E); exact (split_only _ _ _ _ _ W E)|]. intros (N & V & szs & S).
    destruct (split_result a sizes n x W N szs V S) as (ys & E & _). eauto.
  - intros ys E. destruct (split_only _ _ _ _ _ W E) as (N & V & szs & S).
    destruct (split_result a sizes n x W N szs V S) as (ys' & E' & Wy & Ln & <- & C). rewrite E in E'. injection E' as <-. auto.
Qed.
Theorem pad_exact_holds {T} (zero : T) mode pads value axes (x : tensor T) : well_formed x ->
  let rank := length (dims x) in
  ((exists y, pad zero mode pads value axes x = Some y) <->
    mode = true /\ length pads = 2 * rank /\ Forall (fun p => (0 <= p)%Z) pads /\ forall v, value = ValueWeight v -> v = 0%Z) /\
  forall y, pad zero mode pads value axes x = Some y -> well_formed y /\
    padded zero (map Z.to_nat (firstn rank pads)) (map Z.to_nat (skipn rank pads)) x y.
Proof.
  intros W rank. split.
  - split.
    + intros (y & E). destruct (pad_only _ _ _ _ _ _ _ E) as (-> & L & P & V). repeat split; auto. intros v ->. exact V.
    + intros (-> & L & P & V). destruct (pad_result zero pads value axes x W L P) as (y & E & _); eauto. destruct value; auto.
  - intros y E. destruct (pad_only _ _ _ _ _ _ _ E) as (-> & L & P & V).
    destruct (pad_result zero pads value axes x W L P V) as (y' & E' & H). rewrite E in E'. now injection E' as <-.
Qed.
Definition asked_value (v : pad_value) : Z := match v with ValueDefault => 0 | ValueAttribute v => v | ValueWeight v => v | ValueOther v => v end.
Theorem pad_axes_fail : ~ (forall pads value axes (x y : tensor Z), well_formed x -> pad 0%Z true pads value axes x = Some y ->
  let rank := length (dims x) in
  let on := match axes with Some l => map (axis_position (Z.of_nat rank)) l | None => seq 0 rank end in
  padded (asked_value value) (pads_on rank on (map Z.to_nat (firstn rank pads))) (pads_on rank on (map Z.to_nat (skipn rank pads))) x y).
Proof.
  intros H. destruct (H [1; 0; 0; 0]%Z ValueDefault (Some [1; 0]%Z) (ten [1; 1] [5]%Z) (ten [2; 1] [0; 5]%Z)) as (D & _).
  - reflexivity.
  - vm_compute. reflexivity.
  - vm_compute in D. discriminate.
Qed.
Theorem pad_value_fails : ~ (forall pads value (x y : tensor Z), well_formed x -> pad 0%Z true pads value None x = Some y ->
  padded (asked_value value) (map Z.to_nat (firstn (length (dims x)) pads)) (map Z.to_nat (skipn (length (dims x)) pads)) x y).
Proof.
  intros H. destruct (H [1; 0]%Z (ValueAttribute 9) (ten [1] [5]%Z) (ten [2] [0; 5]%Z)) as (_ & _ & F).
  - reflexivity.
  - vm_compute. reflexivity.
  - specialize (F [0]). assert (E : Some 0%Z = Some 9%Z); [|discriminate]. apply F.
    + repeat constructor.
    + intros i Hi Eq. pose proof (in_range_length _ _ Hi) as L. destruct i as [|a [|b i]]; try discriminate L. cbn in Eq. injection Eq. lia.
Qed.
Theorem gather_axis_fails : ~ (forall T a idx (x y : tensor T), well_formed x -> well_formed idx ->
  gather a idx x = Some y -> valid_axis (Z.of_nat (length (dims x))) a).
Proof.
  intros H. specialize (H Z 3%Z (ten [2] [0; 0]%Z) (ten [2] [7; 8]%Z) (ten [2; 1; 1; 2] [7; 7; 8; 8]%Z) eq_refl eq_refl eq_refl).
  unfold valid_axis in H. cbn in H. lia.
Qed.
Theorem gather_exact_holds {T} a idx (x : tensor T) : well_formed x -> well_formed idx ->
  valid_axis (Z.of_nat (length (dims x))) a ->
  let axis := axis_position (Z.of_nat (length (dims x))) a in
  Forall (lt 0) (firstn axis (dims x)) ->
  ((exists y, gather a idx x = Some y) <-> Forall (valid_index (axis_dim axis x)) (flat idx)) /\
  forall y, gather a idx x = Some y -> well_formed y /\ gathered axis idx x y.
Proof.
  intros Wx Wi V axis P. split.
  - split; [intros (y & E); exact (gather_only a idx x y Wx Wi V P E)|]. intros F.
    destruct (gather_result a idx x Wx Wi V F) as (y & E & _). eauto.
  - intros y E. destruct (gather_result a idx x Wx Wi V (gather_only a idx x y Wx Wi V P E)) as (y' & E' & H).
    rewrite E in E'. now injection E' as <-.
Qed.
Theorem gather_elements_fails : ~ (forall T a idx (x y : tensor T), well_formed x -> well_formed idx ->
  gather_elements a idx x = Some y -> elements_gathered (axis_position (Z.of_nat (length (dims x))) a) idx x y).
Proof.
  intros H. destruct (H Z 0%Z (ten [1; 3] [0; 0; 0]%Z) (ten [2; 2] [1; 2; 3; 4]%Z) (ten [1; 3] [1; 2; 3]%Z) eq_refl eq_refl eq_refl) as (_ & E).
  specialize (E [0; 2] 0%Z eq_refl). vm_compute in E. discriminate.
Qed.
Theorem gather_elements_exact_holds {T} a idx (x : tensor T) : well_formed x -> well_formed idx ->
  let rank := length (dims x) in
  let axis := axis_position (Z.of_nat rank) a in
  (forall k, k < rank -> k <> axis -> nth k (dims idx) 0 <= nth k (dims x) 0) ->
  ((exists y, gather_elements a idx x = Some y) <->
    valid_axis (Z.of_nat rank) a /\ length (dims idx) = rank /\ Forall (valid_index (axis_dim axis x)) (flat idx)) /\
  forall y, gather_elements a idx x = Some y -> well_formed y /\ elements_gathered axis idx x y.
Proof.
  intros Wx Wi rank axis Le. split.
  - split; [intros (y & E); exact (gather_elements_only a idx x y Wi E)|]. intros (V & L & F).
    destruct (gather_elements_result a idx x Wx Wi V L Le F) as (y & E & _). eauto.
  - intros y E. destruct (gather_elements_only a idx x y Wi E) as (V & L & F).
    destruct (gather_elements_result a idx x Wx Wi V L Le F) as (y' & E' & H). rewrite E in E'. now injection E' as <-.
Qed.
Theorem scatter_checked_fails : ~ (forall T q k idx (upd x y : tensor T),
  well_formed idx -> well_formed upd -> well_formed x -> dims idx = q ++ [k] -> k <= length (dims x) ->
  dims upd = q ++ skipn k (dims x) -> scatter_nd idx upd x = Some y ->
  forall u j z, in_range u q -> j < k -> elem idx (u ++ [j]) = Some z -> valid_index (nth j (dims x) 0) z).
Proof.
  intros H. specialize (H Z [1] 2 (ten [1; 2] [0; 3]%Z) (ten [1] [9]%Z) (ten [2; 2] [1; 2; 3; 4]%Z) (ten [2; 2] [1; 2; 3; 9]%Z)
    eq_refl eq_refl eq_refl eq_refl (le_n 2) eq_refl ltac:(vm_compute; reflexivity) [0] 1 3%Z ltac:(repeat constructor) ltac:(auto) eq_refl).
  unfold valid_index in H. cbn in H. lia.
Qed.
Theorem scatter_exact_holds {T} q k idx (upd x : tensor T) :
  well_formed idx -> well_formed upd -> well_formed x -> dims idx = q ++ [k] -> k <= length (dims x) ->
  dims upd = q ++ skipn k (dims x) -> Forall (lt 0) (dims x) -> (Z.of_nat (prod (dims x)) < 2 ^ 64)%Z ->
  (forall u j z, in_range u q -> j < k -> elem idx (u ++ [j]) = Some z -> valid_index (nth j (dims x) 0) z) ->
  (forall u u' p, in_range u q -> in_range u' q -> length p = k -> target idx x u p -> target idx x u' p -> u = u') ->
  exists y, scatter_nd idx upd x = Some y /\ well_formed y /\ scattered q k idx upd x y.
Proof. intros. now apply scatter_ok. Qed.
Theorem tile_exact_holds {T} repeats (x : tensor T) : well_formed x -> length repeats = length (dims x) ->
  ((exists y, tile repeats x = Some y) <-> Forall (fun r => (1 <= r)%Z) repeats /\ Forall (lt 0) (dims x)) /\
  forall y, tile repeats x = Some y -> well_formed y /\ tiled (map Z.to_nat repeats) x y.
Proof.
  intros W L. split.
  - split; [intros (y & E); exact (tile_only _ _ _ L E)|]. intros (R & D). destruct (tile_result repeats x W L R D) as (y & E & _). eauto.
  - intros y E. destruct (tile_only _ _ _ L E) as (R & D). destruct (tile_result repeats x W L R D) as (y' & E' & H).
    rewrite E in E'. now injection E' as <-.
Qed.
Theorem expand_exact_holds {T} shape (x : tensor T) : well_formed x ->
  ((exists y, expand shape x = Some y) <-> exists target out, shape = map Z.of_nat target /\ broadcasts_to (dims x) target out) /\
  forall y, expand shape x = Some y -> well_formed y /\ expanded x y /\
    exists target, shape = map Z.of_nat target /\ broadcasts_to (dims x) target (dims y).
Proof.
  intros W. split.
  - split; [intros (y & E); destruct (expand_only _ _ _ E) as (t & ? & ?); eauto|]. intros (t & o & S & B).
    destruct (expand_result shape x t o W S B) as (y & E & _). eauto.
  - intros y E. destruct (expand_only _ _ _ E) as (t & S & B). destruct (expand_result shape x t _ W S B) as (y' & E' & Wy & _ & H).
    rewrite E in E'. injection E' as <-. eauto.
Qed.
Lemma scatter_case :
  let idx := ten [2; 1] [-1; 0]%Z in let x := ten [3; 2] [1; 1; 2; 2; 3; 3]%Z in
  (forall u j z, in_range u [2] -> j < 1 -> elem idx (u ++ [j]) = Some z -> valid_index (nth j (dims x) 0) z) /\
  (forall u u' p, in_range u [2] -> in_range u' [2] -> length p = 1 -> target idx x u p -> target idx x u' p -> u = u').
Proof.
  intros idx x. assert (C : forall u, in_range u [2] -> u = [0] \/ u = [1]).
  { intros u R. pose proof (in_range_length _ _ R) as L. destruct u as [|a [|b u]]; try discriminate L. inversion R; subst.
    destruct a as [|[|a]]; auto. lia. }
  split.
  - intros u j z R Hj E. assert (j = 0) by lia. subst j. unfold valid_index.
    destruct (C u R) as [->| ->]; vm_compute in E; injection E as <-; cbn; lia.
  - intros u u' p R R' L A B. destruct p as [|a [|b p]]; try discriminate L. unfold target in A, B. cbn [length seq] in A, B.
    inversion A as [|? ? ? ? (z & Ez & _ & Ea)]; subst. inversion B as [|? ? ? ? (z' & Ez' & _ & Eb)]; subst.
    destruct (C u R) as [->| ->], (C u' R') as [->| ->]; auto; vm_compute in Ez, Ez'; injection Ez as <-; injection Ez' as <-; vm_compute in Eb; discriminate.
Qed.
