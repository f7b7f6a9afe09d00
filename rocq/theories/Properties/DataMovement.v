(** Layers that move data without computing.  [None] is a refusal.  The meaning of each
    operator is in Spec/Tensors. *)
From Coq Require Import List Arith Bool ZArith Lia.
From Verif Require Import Spec.Shapes Spec.Tensors Model.DataMovement
  Proofs.DataMovement Proofs.DataMovement2 Proofs.DataMovement4 Proofs.DataMovement5 Proofs.DataMovement6 Proofs.DataMovement7 Proofs.DataMovement8 Proofs.DataMovement9.
Import ListNotations.

Definition ten (d : list nat) (l : list Z) : tensor Z := {| dims := d; flat := l |}.

(** ** C100: Transpose accepts exactly the permutations and permutes the axes. *)
Theorem C100_transpose_exact {T} perm (x : tensor T) : well_formed x ->
  ((exists y, transpose perm x = Some y) <-> exists p, perm_of (length (dims x)) perm p /\ permutation_of (length (dims x)) p) /\
  forall y, transpose perm x = Some y ->
    exists p, perm_of (length (dims x)) perm p /\ permutation_of (length (dims x)) p /\ well_formed y /\ transposed p x y.
Proof. exact (transpose_exact_holds perm x). Qed.
Print Assumptions C100_transpose_exact.
Example transpose_exact_example :
  transpose (Some [1; -3; 2]%Z) (ten [2; 3; 1] [10; 11; 12; 20; 21; 22]%Z) = Some (ten [3; 2; 1] [10; 20; 11; 21; 12; 22]%Z) /\
  transpose (Some [1; 1; 2]%Z) (ten [2; 3; 1] [10; 11; 12; 20; 21; 22]%Z) = None.
Proof. split; vm_compute; reflexivity. Qed.

(** ** C101: Slice. *)
(** Every slice that ONNX defines is accepted with its meaning. *)
Definition slice_complete : Prop := forall T starts ends axes_in steps_in (x : tensor T),
  let axes := slice_axes (length starts) axes_in in
  let steps := slice_steps (length starts) steps_in in
  let pos := axis_position (Z.of_nat (length (dims x))) in
  well_formed x -> length ends = length starts -> length axes = length starts -> length steps = length starts ->
  Forall (valid_axis (Z.of_nat (length (dims x)))) axes -> NoDup (map pos axes) -> Forall (fun z => z <> 0%Z) steps ->
  exists y ranges, slice starts ends axes_in steps_in x = Some y /\
    slice_ranges (dims x) (map pos axes) starts ends steps ranges /\ selected ranges x y.
(** A negative step is refused: reversing a vector. *)
Theorem C101_slice_complete_refuted : ~ slice_complete.
Proof. exact slice_complete_fails. Qed.
Print Assumptions C101_slice_complete_refuted.
Example slice_negative : slice_positions 3 (-1) (-4) (-1) = [2; 1; 0] /\
  slice [-1]%Z [-4]%Z (Some [0]%Z) (Some [-1]%Z) (ten [3] [7; 8; 9]%Z) = None.
Proof. split; vm_compute; reflexivity. Qed.
(** With positive steps and distinct axes, acceptance and meaning are those of ONNX; anything
    accepted has positive steps and axes that exist. *)
Theorem C101_slice_exact_partial {T} starts ends axes_in steps_in (x : tensor T) :
  let axes := slice_axes (length starts) axes_in in
  let steps := slice_steps (length starts) steps_in in
  let pos := axis_position (Z.of_nat (length (dims x))) in
  well_formed x -> NoDup (map pos axes) ->
  ((exists y, slice starts ends axes_in steps_in x = Some y) <->
    length ends = length starts /\ length axes = length starts /\ length steps = length starts /\
    Forall (valid_axis (Z.of_nat (length (dims x)))) axes /\ Forall (fun z => (0 < z)%Z) steps) /\
  forall y, slice starts ends axes_in steps_in x = Some y -> well_formed y /\ exists ranges,
    slice_ranges (dims x) (map pos axes) starts ends steps ranges /\ selected ranges x y.
Proof. exact (slice_exact_holds starts ends axes_in steps_in x). Qed.
Print Assumptions C101_slice_exact_partial.
Example slice_exact_example :
  slice [-3; 0]%Z [100; -1]%Z (Some [1; 0]%Z) (Some [2; 1]%Z) (ten [2; 4] [10; 11; 12; 13; 20; 21; 22; 23]%Z) = Some (ten [1; 2] [11; 13]%Z) /\
  NoDup (map (axis_position 2) [1; 0]%Z).
Proof. split; [vm_compute; reflexivity|]. repeat constructor; cbn; intuition discriminate. Qed.

(** ** C102: Concat and Split. *)
Theorem C102_concat_exact {T} a (first : tensor T) rest : Forall well_formed (first :: rest) ->
  let rank := length (dims first) in
  let axis := axis_position (Z.of_nat rank) a in
  ((exists y, concat_layer a (first :: rest) = Some y) <->
    valid_axis (Z.of_nat rank) a /\
    Forall (fun x => length (dims x) = rank /\ put axis 0 (dims x) = put axis 0 (dims first)) rest) /\
  forall y, concat_layer a (first :: rest) = Some y -> well_formed y /\ concatenated axis (first :: rest) y.
Proof. exact (concat_exact_holds a first rest). Qed.
Print Assumptions C102_concat_exact.
Example concat_exact_example :
  concat_layer (-1)%Z [ten [2; 1] [1; 2]%Z; ten [2; 2] [3; 4; 5; 6]%Z] = Some (ten [2; 3] [1; 3; 4; 2; 5; 6]%Z) /\
  concat_layer 0%Z [ten [2; 1] [1; 2]%Z; ten [2; 2] [3; 4; 5; 6]%Z] = None.
Proof. split; vm_compute; reflexivity. Qed.
Theorem C102_split_exact {T} a sizes n (x : tensor T) : well_formed x ->
  let rank := length (dims x) in
  let axis := axis_position (Z.of_nat rank) a in
  ((exists ys, split a sizes n x = Some ys) <->
    n <> 0 /\ valid_axis (Z.of_nat rank) a /\ exists szs, split_sizes_of (axis_dim axis x) sizes n szs) /\
  forall ys, split a sizes n x = Some ys -> Forall well_formed ys /\ length ys = n /\
    split_sizes_of (axis_dim axis x) sizes n (map (axis_dim axis) ys) /\ concatenated axis ys x.
Proof. exact (split_exact_holds a sizes n x). Qed.
Print Assumptions C102_split_exact.
Example split_exact_example :
  split 1%Z (Some [1; 2]%Z) 2 (ten [2; 3] [1; 3; 4; 2; 5; 6]%Z) = Some [ten [2; 1] [1; 2]%Z; ten [2; 2] [3; 4; 5; 6]%Z] /\
  split 1%Z None 2 (ten [2; 3] [1; 3; 4; 2; 5; 6]%Z) = None.
Proof. split; vm_compute; reflexivity. Qed.
(** Concatenating the pieces of a split gives the tensor back. *)
Theorem C102_split_then_concat {T} a sizes n (x : tensor T) ys : well_formed x ->
  split a sizes n x = Some ys -> concat_layer a ys = Some x.
Proof. exact (split_concat a sizes n x ys). Qed.
Print Assumptions C102_split_then_concat.

(** ** C103: Pad. *)
(** An accepted Pad pads the axes asked for with the value asked for. *)
Definition asked (v : pad_value) : Z := match v with ValueDefault => 0 | ValueAttribute v => v | ValueWeight v => v | ValueOther v => v end.
Definition pad_sound : Prop := forall pads value axes (x y : tensor Z), well_formed x -> pad 0%Z true pads value axes x = Some y ->
  let rank := length (dims x) in
  let on := match axes with Some l => map (axis_position (Z.of_nat rank)) l | None => seq 0 rank end in
  padded (asked value) (pads_on rank on (map Z.to_nat (firstn rank pads))) (pads_on rank on (map Z.to_nat (skipn rank pads))) x y.
(** The axes are ignored ... *)
Theorem C103_pad_sound_refuted : ~ pad_sound.
Proof. exact pad_axes_fail. Qed.
Print Assumptions C103_pad_sound_refuted.
Example pad_axes : pad 0%Z true [1; 0; 0; 0]%Z ValueDefault (Some [1; 0]%Z) (ten [1; 1] [5]%Z) = Some (ten [2; 1] [0; 5]%Z) /\
  pads_on 2 [1; 0] [1; 0] = [0; 1].
Proof. split; vm_compute; reflexivity. Qed.
(** ... and so is a value that is not among the weights, even without axes. *)
Theorem C103_pad_value_refuted : ~ (forall pads value (x y : tensor Z), well_formed x -> pad 0%Z true pads value None x = Some y ->
  padded (asked value) (map Z.to_nat (firstn (length (dims x)) pads)) (map Z.to_nat (skipn (length (dims x)) pads)) x y).
Proof. exact pad_value_fails. Qed.
Print Assumptions C103_pad_value_refuted.
Example pad_value_ignored : pad 0%Z true [1; 0]%Z (ValueAttribute 9) None (ten [1] [5]%Z) = Some (ten [2] [0; 5]%Z).
Proof. vm_compute. reflexivity. Qed.
(** Without axes, the result is the tensor padded with zeros; a mode other than constant, a
    negative amount and a value among the weights other than zero are refused. *)
Theorem C103_pad_exact_partial {T} (zero : T) mode pads value axes (x : tensor T) : well_formed x ->
  let rank := length (dims x) in
  ((exists y, pad zero mode pads value axes x = Some y) <->
    mode = true /\ length pads = 2 * rank /\ Forall (fun p => (0 <= p)%Z) pads /\ forall v, value = ValueWeight v -> v = 0%Z) /\
  forall y, pad zero mode pads value axes x = Some y -> well_formed y /\
    padded zero (map Z.to_nat (firstn rank pads)) (map Z.to_nat (skipn rank pads)) x y.
Proof. exact (pad_exact_holds zero mode pads value axes x). Qed.
Print Assumptions C103_pad_exact_partial.
Example pad_exact_example :
  pad 0%Z true [0; 1; 1; 0]%Z (ValueWeight 0) None (ten [1; 2] [5; 6]%Z) = Some (ten [2; 3] [0; 5; 6; 0; 0; 0]%Z) /\
  pad 0%Z true [0; 1; 1; 0]%Z (ValueWeight 1) None (ten [1; 2] [5; 6]%Z) = None.
Proof. split; vm_compute; reflexivity. Qed.

(** ** C104: Gather and GatherElements with constant indices. *)
(** Gather refuses an axis that does not exist. *)
Definition gather_axis_checked : Prop := forall T a idx (x y : tensor T), well_formed x -> well_formed idx ->
  gather a idx x = Some y -> valid_axis (Z.of_nat (length (dims x))) a.
Theorem C104_gather_axis_refuted : ~ gather_axis_checked.
Proof. exact gather_axis_fails. Qed.
Print Assumptions C104_gather_axis_refuted.
Example gather_bad_axis : gather 3%Z (ten [2] [0; 0]%Z) (ten [2] [7; 8]%Z) = Some (ten [2; 1; 1; 2] [7; 7; 8; 8]%Z).
Proof. vm_compute. reflexivity. Qed.
Theorem C104_gather_exact_partial {T} a idx (x : tensor T) : well_formed x -> well_formed idx ->
  valid_axis (Z.of_nat (length (dims x))) a ->
  let axis := axis_position (Z.of_nat (length (dims x))) a in
  Forall (lt 0) (firstn axis (dims x)) ->
  ((exists y, gather a idx x = Some y) <-> Forall (valid_index (axis_dim axis x)) (flat idx)) /\
  forall y, gather a idx x = Some y -> well_formed y /\ gathered axis idx x y.
Proof. exact (gather_exact_holds a idx x). Qed.
Print Assumptions C104_gather_exact_partial.
Example gather_exact_example :
  gather (-1)%Z (ten [2; 1] [-1; 0]%Z) (ten [2; 3] [10; 11; 12; 20; 21; 22]%Z) = Some (ten [2; 2; 1] [12; 10; 22; 20]%Z) /\
  gather 1%Z (ten [1] [3]%Z) (ten [2; 3] [10; 11; 12; 20; 21; 22]%Z) = None.
Proof. split; vm_compute; reflexivity. Qed.
(** An accepted GatherElements reads only elements of the data at the coordinates asked for. *)
Definition gather_elements_sound : Prop := forall T a idx (x y : tensor T), well_formed x -> well_formed idx ->
  gather_elements a idx x = Some y -> elements_gathered (axis_position (Z.of_nat (length (dims x))) a) idx x y.
(** Indices with more columns than the data read the next row. *)
Theorem C104_gather_elements_refuted : ~ gather_elements_sound.
Proof. exact gather_elements_fails. Qed.
Print Assumptions C104_gather_elements_refuted.
Example gather_elements_wide :
  gather_elements 0%Z (ten [1; 3] [0; 0; 0]%Z) (ten [2; 2] [1; 2; 3; 4]%Z) = Some (ten [1; 3] [1; 2; 3]%Z).
Proof. vm_compute. reflexivity. Qed.
Theorem C104_gather_elements_exact_partial {T} a idx (x : tensor T) : well_formed x -> well_formed idx ->
  let rank := length (dims x) in
  let axis := axis_position (Z.of_nat rank) a in
  (forall k, k < rank -> k <> axis -> nth k (dims idx) 0 <= nth k (dims x) 0) ->
  ((exists y, gather_elements a idx x = Some y) <->
    valid_axis (Z.of_nat rank) a /\ length (dims idx) = rank /\ Forall (valid_index (axis_dim axis x)) (flat idx)) /\
  forall y, gather_elements a idx x = Some y -> well_formed y /\ elements_gathered axis idx x y.
Proof. exact (gather_elements_exact_holds a idx x). Qed.
Print Assumptions C104_gather_elements_exact_partial.
Example gather_elements_example :
  gather_elements 1%Z (ten [2; 3] [0; -1; 1; 1; 0; 0]%Z) (ten [2; 2] [1; 2; 3; 4]%Z) = Some (ten [2; 3] [1; 2; 2; 4; 3; 3]%Z).
Proof. vm_compute. reflexivity. Qed.

(** ** C105: ScatterND. *)
(** An index outside the data is refused. *)
Definition scatter_checked : Prop := forall T q k idx (upd x y : tensor T),
  well_formed idx -> well_formed upd -> well_formed x -> dims idx = q ++ [k] -> k <= length (dims x) ->
  dims upd = q ++ skipn k (dims x) -> scatter_nd idx upd x = Some y ->
  forall u j z, in_range u q -> j < k -> elem idx (u ++ [j]) = Some z -> valid_index (nth j (dims x) 0) z.
(** It writes another element instead. *)
Theorem C105_scatter_checked_refuted : ~ scatter_checked.
Proof. exact scatter_checked_fails. Qed.
Print Assumptions C105_scatter_checked_refuted.
Example scatter_out_of_range :
  scatter_nd (ten [1; 2] [0; 3]%Z) (ten [1] [9]%Z) (ten [2; 2] [1; 2; 3; 4]%Z) = Some (ten [2; 2] [1; 2; 3; 9]%Z) /\
  scatter_nd (ten [1; 2] [1; -3]%Z) (ten [1] [9]%Z) (ten [2; 2] [1; 2; 3; 4]%Z) = Some (ten [2; 2] [1; 9; 3; 4]%Z).
Proof. split; vm_compute; reflexivity. Qed.
(** With indices inside the data and no element written twice, the result is the data with
    the updates in place. *)
Theorem C105_scatter_exact_partial {T} q k idx (upd x : tensor T) :
  well_formed idx -> well_formed upd -> well_formed x -> dims idx = q ++ [k] -> k <= length (dims x) ->
  dims upd = q ++ skipn k (dims x) -> Forall (lt 0) (dims x) -> (Z.of_nat (prod (dims x)) < 2 ^ 64)%Z ->
  (forall u j z, in_range u q -> j < k -> elem idx (u ++ [j]) = Some z -> valid_index (nth j (dims x) 0) z) ->
  (forall u u' p, in_range u q -> in_range u' q -> length p = k -> target idx x u p -> target idx x u' p -> u = u') ->
  exists y, scatter_nd idx upd x = Some y /\ well_formed y /\ scattered q k idx upd x y.
Proof. exact (scatter_exact_holds q k idx upd x). Qed.
Print Assumptions C105_scatter_exact_partial.
Example scatter_exact_example :
  scatter_nd (ten [2; 1] [-1; 0]%Z) (ten [2; 2] [7; 8; 5; 6]%Z) (ten [3; 2] [1; 1; 2; 2; 3; 3]%Z) = Some (ten [3; 2] [5; 6; 2; 2; 7; 8]%Z).
Proof. vm_compute. reflexivity. Qed.

Example scatter_exact_hypotheses :
  let idx := ten [2; 1] [-1; 0]%Z in let x := ten [3; 2] [1; 1; 2; 2; 3; 3]%Z in
  (forall u j z, in_range u [2] -> j < 1 -> elem idx (u ++ [j]) = Some z -> valid_index (nth j (dims x) 0) z) /\
  (forall u u' p, in_range u [2] -> in_range u' [2] -> length p = 1 -> target idx x u p -> target idx x u' p -> u = u').
Proof. exact scatter_case. Qed.

(** ** C106: Tile repeats the tensor; zero dimensions and counts below one are refused. *)
Theorem C106_tile_exact {T} repeats (x : tensor T) : well_formed x -> length repeats = length (dims x) ->
  ((exists y, tile repeats x = Some y) <-> Forall (fun r => (1 <= r)%Z) repeats /\ Forall (lt 0) (dims x)) /\
  forall y, tile repeats x = Some y -> well_formed y /\ tiled (map Z.to_nat repeats) x y.
Proof. exact (tile_exact_holds repeats x). Qed.
Print Assumptions C106_tile_exact.
Example tile_exact_example :
  tile [2; 3]%Z (ten [1; 2] [1; 2]%Z) = Some (ten [2; 6] [1; 2; 1; 2; 1; 2; 1; 2; 1; 2; 1; 2]%Z) /\
  tile [2; 0]%Z (ten [1; 2] [1; 2]%Z) = None.
Proof. split; vm_compute; reflexivity. Qed.

(** ** C107: Expand accepts exactly the shapes that broadcast and repeats the elements. *)
Theorem C107_expand_exact {T} shape (x : tensor T) : well_formed x ->
  ((exists y, expand shape x = Some y) <-> exists target out, shape = map Z.of_nat target /\ broadcasts_to (dims x) target out) /\
  forall y, expand shape x = Some y -> well_formed y /\ expanded x y /\
    exists target, shape = map Z.of_nat target /\ broadcasts_to (dims x) target (dims y).
Proof. exact (expand_exact_holds shape x). Qed.
Print Assumptions C107_expand_exact.
Example expand_exact_example :
  expand [2; 1; 2]%Z (ten [3; 1] [1; 2; 3]%Z) = Some (ten [2; 3; 2] [1; 1; 2; 2; 3; 3; 1; 1; 2; 2; 3; 3]%Z) /\
  expand [2]%Z (ten [3] [1; 2; 3]%Z) = None.
Proof. split; vm_compute; reflexivity. Qed.
