(** C29-C31: Merkle trees over 64-byte leaves.  The hash function is an arbitrary
    function [H]; binding is stated as "equal, or two distinct messages with the
    same hash among the messages hashed by the two verifications". *)
From Coq Require Import List Arith Lia ZArith.
From Verif Require Import Spec.Merkle Model.Merkle Proofs.Merkle.
Import ListNotations.

(** ** C29  Honest openings verify *)
Theorem C29_open_complete H leaves k index :
  length leaves = 2 ^ k -> 1 <= k < 64 -> index < 2 ^ k ->
  exists t p r, new_with_leaves H leaves = Some t /\ index_query t index = Some p /\
    root t = Some r /\ r = subtree H (fun i => nth i leaves []) k 0 /\
    p_leaf p = nth index leaves [] /\ p_index p = index /\ length (p_nodes p) = k /\
    path_verify H p r = Some true.
Proof. exact (open_complete H leaves k index). Qed.
Print Assumptions C29_open_complete.

Theorem C29_range_complete H leaves k m a :
  length leaves = 2 ^ k -> 1 <= m <= k -> (a + 1) * 2 ^ m <= 2 ^ k ->
  exists t p r, new_with_leaves H leaves = Some t /\
    range_query t (a * 2 ^ m) (a * 2 ^ m + 2 ^ m - 1) = Some p /\ root t = Some r /\
    r_leaves p = firstn (2 ^ m) (skipn (a * 2 ^ m) leaves) /\
    r_left p = a * 2 ^ m /\ r_right p = a * 2 ^ m + 2 ^ m - 1 /\
    range_verify H p r = Some true.
Proof. exact (range_complete H leaves k m a). Qed.
Print Assumptions C29_range_complete.

(** The hypothesis 1 <= k is needed: the only leaf of a one-leaf tree cannot be
    opened (the code panics). *)
Theorem C29_single_leaf_cannot_be_opened H leaf index :
  exists t, new_with_leaves H [leaf] = Some t /\ index_query t index = None.
Proof. exact (single_leaf H leaf index). Qed.
Print Assumptions C29_single_leaf_cannot_be_opened.

Example C29_applies : exists t p, new_with_leaves (fun m => m) [[1]; [2]; [3]; [4]]%Z = Some t /\
  index_query t 2 = Some p /\ p_leaf p = [3]%Z /\ length (p_nodes p) = 2 /\ (1 + 1) * 2 ^ 1 <= 2 ^ 2.
Proof. do 2 eexists. repeat split; vm_compute; lia. Qed.

(** ** C30  Openings are binding *)
Theorem C30_path_binding H p1 p2 r :
  (forall m, length (H m) = 32) ->
  length (p_nodes p1) = length (p_nodes p2) -> p_index p1 = p_index p2 ->
  path_verify H p1 r = Some true -> path_verify H p2 r = Some true ->
  (p_leaf p1 = p_leaf p2 /\ p_nodes p1 = p_nodes p2) \/ collision H (path_msgs H p1) (path_msgs H p2).
Proof. exact (fun Hl => path_binding H Hl p1 p2 r). Qed.
Print Assumptions C30_path_binding.

Theorem C30_range_binding H p1 p2 m r :
  (forall m, length (H m) = 32) ->
  length (r_leaves p1) = 2 ^ m -> length (r_leaves p2) = 2 ^ m ->
  length (r_nodes p1) = length (r_nodes p2) -> r_left p1 = r_left p2 -> r_right p1 = r_right p2 ->
  range_verify H p1 r = Some true -> range_verify H p2 r = Some true ->
  (r_leaves p1 = r_leaves p2 /\ r_nodes p1 = r_nodes p2) \/
  collision H (range_path_msgs H p1 m) (range_path_msgs H p2 m).
Proof. exact (fun Hl => range_binding H Hl p1 p2 m r). Qed.
Print Assumptions C30_range_binding.

(** The collision alternative cannot be dropped, and is not always present: two
    accepted paths with different leaves exist for a constant hash, and a
    32-byte hash that separates short messages has no collision on them. *)
Example C30_applies :
  let H := fun _ : bytes => repeat 0%Z 32 in
  let p l := {| p_leaf := l; p_nodes := [repeat 0%Z 32]; p_index := 1 |} in
  path_verify H (p [1%Z]) (repeat 0%Z 32) = Some true /\ path_verify H (p [2%Z]) (repeat 0%Z 32) = Some true /\
  collision H (path_msgs H (p [1%Z])) (path_msgs H (p [2%Z])) /\
  ~ collision (fun m => firstn 32 (m ++ repeat 0%Z 32)) [[1%Z]] [[2%Z]].
Proof.
  cbv zeta. split; [vm_compute; reflexivity|]. split; [vm_compute; reflexivity|]. split.
  - exists [1%Z], [2%Z]. cbn. repeat split; auto. discriminate.
  - intros (x & y & [<-|[]] & [<-|[]] & _ & E). discriminate.
Qed.

(** ** C31  An accepted opening shows the leaf at the claimed position *)

(** False: an inner node is accepted as a leaf ... *)
Theorem C31_position_refuted H :
  (forall m, length (H m) = 32) ->
  exists leaves t r p, length leaves = 4 /\ Forall (fun l => length l = 64) leaves /\
    new_with_leaves H leaves = Some t /\ root t = Some r /\ path_verify H p r = Some true /\
    length (p_leaf p) = 64 /\ p_leaf p <> nth (p_index p) leaves [].
Proof. exact (fun Hl => position_refuted H Hl). Qed.
Print Assumptions C31_position_refuted.

(** ... and an accepted opening stays accepted under another position. *)
Theorem C31_index_alias_refuted H p r : path_verify H p r = Some true ->
  path_verify H {| p_leaf := p_leaf p; p_nodes := p_nodes p; p_index := p_index p + 2 ^ length (p_nodes p) |} r = Some true.
Proof. exact (index_alias H p r). Qed.
Print Assumptions C31_index_alias_refuted.

(** What holds: if the caller checks that the path length is the tree depth, the
    leaf is the one at the claimed position modulo the number of leaves, or the
    messages hashed give a collision. *)
Theorem C31_position_partial H leaves k t p r :
  (forall m, length (H m) = 32) -> length leaves = 2 ^ k ->
  new_with_leaves H leaves = Some t -> root t = Some r ->
  length (p_nodes p) = k -> path_verify H p r = Some true ->
  p_leaf p = nth (p_index p mod 2 ^ k) leaves [] \/
  collision H (path_msgs H p) (subtree_msgs H (fun i => nth i leaves []) k 0).
Proof. exact (fun Hl => path_position H Hl leaves k t p r). Qed.
Print Assumptions C31_position_partial.
