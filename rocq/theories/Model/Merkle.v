(** Model of prover/tree/src (tree.rs, path.rs, leaf.rs, node.rs).  Bytes are
    integers, a leaf or node is its byte string (64 and 32 bytes); Keccak-256 is
    an abstract function [H] with 32-byte results.  Panics (index faults,
    unwrap of None, failed assertions, subtraction underflow, shifts by 64 or
    more) are [None].  Machine words are unbounded. *)
From Coq Require Import List Arith Bool ZArith.
From Verif Require Import Base.Array Spec.Merkle.
Import ListNotations.

Section Model.
Variable H : bytes -> bytes.

(** leaf.rs:43-52 leaf_hash, node.rs:40-49 node_hash *)
Definition leaf_hash (leaf : bytes) : bytes := H leaf.
Definition node_hash (l r : bytes) : bytes := H (l ++ r).
(** node.rs:9 Default *)
Definition node_default : bytes := repeat 0%Z 32.

Record tree := { t_nodes : list bytes; t_leaves : list bytes }.

(** tree.rs:268-319 *)
Definition is_left_child (i : nat) : bool := Nat.odd i.
Definition sibling_index (i : nat) : option nat :=
  if (i =? 0)%nat then None else if is_left_child i then Some (i + 1) else Some (i - 1).
Definition parent_index (i : nat) : option nat := if (0 <? i)%nat then Some ((i - 1) / 2) else None.
Definition left_child_index (i : nat) : nat := 2 * i + 1.
Definition convert_index_to_last_level (i th : nat) : option nat :=
  let* _ := guard (1 <=? th) in Some (i + 2 ^ (th - 1) - 1).

(** tree.rs:306-314 common_ancestor.  The two indexes strictly decrease;
    [fuel] bounds the loop. *)
Fixpoint common_ancestor_loop (fuel l r : nat) : option nat :=
  if (l =? r)%nat then Some l else
  match fuel with
  | O => None
  | S f => let* l' := parent_index l in let* r' := parent_index r in common_ancestor_loop f l' r'
  end.
Definition common_ancestor (l r : nat) : option nat := common_ancestor_loop (l + r) l r.

(** ark_std::log2 (rounded up) *)
Definition log2 := Nat.log2_up.

(** tree.rs:128-132  level_indices *)
Fixpoint levels (n index : nat) : list nat :=
  match n with O => [] | S m => index :: levels m (left_child_index index) end.

(** tree.rs:108-172  new_with_leaf_nodes *)
Definition new_with_leaf_nodes (leaf_nodes : list bytes) (th : nat) : option (list bytes) :=
  let* _ := guard (1 <=? th) in
  let* _ := guard (length leaf_nodes =? 2 ^ (th - 1)) in
  let nodes := repeat node_default (2 ^ (th - 1) - 1) in
  if th <=? 1 then Some nodes else
  let lv := levels (th - 1) 0 in
  let start := last lv 0 in
  let upper := left_child_index start in
  let* nodes := for_in (seq start (Nat.min upper (length nodes) - start)) (fun i ns =>
      let li := left_child_index i - upper in
      let* a := aget leaf_nodes li in
      let* b := aget leaf_nodes (li + 1) in
      aset ns i (node_hash a b)) nodes in
  for_each (rev (removelast lv)) (fun start ns =>
      let upper := left_child_index start in
      for_in (seq start (upper - start)) (fun i ns =>
        let left := left_child_index i in
        let* a := aget ns left in
        let* b := aget ns (left + 1) in
        aset ns i (node_hash a b)) ns) nodes.

(** tree.rs:42-54  new_with_leaves *)
Definition new_with_leaves (leaves : list bytes) : option tree :=
  let th := log2 (length leaves + 1) in
  let leaf_nodes := map leaf_hash leaves in
  let* nodes := new_with_leaf_nodes leaf_nodes th in
  Some {| t_nodes := nodes ++ leaf_nodes; t_leaves := leaves |}.

(** tree.rs:176-178  root, 186-188 height *)
Definition root (t : tree) : option bytes := aget (t_nodes t) 0.
Definition height (t : tree) : nat := log2 (length (t_leaves t) + 1).

Record path := { p_leaf : bytes; p_nodes : list bytes; p_index : nat }.
Record range_path := { r_leaves : list bytes; r_nodes : list bytes; r_left : nat; r_right : nat }.

(** The loops of tree.rs:206-211 and 243-248: siblings from [cur] up to the
    root, lowest first ([path_nodes] before the final [reverse]). *)
Fixpoint siblings (fuel : nat) (t : tree) (cur : nat) : option (list bytes) :=
  if (cur =? 0)%nat then Some [] else
  match fuel with
  | O => None
  | S f =>
    let* s := sibling_index cur in
    let* n := aget (t_nodes t) s in
    let* up := parent_index cur in
    let* rest := siblings f t up in
    Some (n :: rest)
  end.

(** tree.rs:192-220  gen_proof, and index_query (259-263) *)
Definition gen_proof (t : tree) (index th : nat) : option path :=
  let* li := convert_index_to_last_level index th in
  let* leaf := aget (t_leaves t) index in
  let* s := sibling_index li in
  let* n := aget (t_nodes t) s in
  let* cur := parent_index li in
  let* rest := siblings cur t cur in
  Some {| p_leaf := leaf; p_nodes := rev (n :: rest); p_index := index |}.
Definition index_query (t : tree) (index : nat) : option path := gen_proof t index (height t).

(** usize::is_power_of_two *)
Definition is_power_of_two (n : nat) : bool := (0 <? n) && (n =? 2 ^ Nat.log2 n).

(** tree.rs:224-256  gen_range_proof, and range_query (266-270) *)
Definition gen_range_proof (t : tree) (left right th : nat) : option range_path :=
  let* _ := guard (left <? right) in
  let* _ := guard (is_power_of_two (right - left + 1)) in
  let* _ := guard (left mod (right - left + 1) =? 0) in
  let* _ := guard (right + 1 <=? length (t_leaves t)) in
  let range_leaves := firstn (right + 1 - left) (skipn left (t_leaves t)) in
  let* li := convert_index_to_last_level left th in
  let* ri := convert_index_to_last_level right th in
  let* cur := common_ancestor li ri in
  let* sib := siblings cur t cur in
  Some {| r_leaves := range_leaves; r_nodes := rev sib; r_left := left; r_right := right |}.
Definition range_query (t : tree) (left right : nat) : option range_path :=
  gen_range_proof t left right (height t).

(** path.rs:42-44  position_list; 81-98 root; 57-78 verify *)
Fixpoint path_loop (index i : nat) (cur : bytes) (nodes : list bytes) : bytes :=
  match nodes with
  | [] => cur
  | n :: r =>
    path_loop index (S i)
      (if Nat.odd (index / 2 ^ i) then node_hash n cur else node_hash cur n) r
  end.
Definition path_root (p : path) : option bytes :=
  let* _ := guard (length (p_nodes p) <? 64) in
  Some (path_loop (p_index p) 0 (leaf_hash (p_leaf p)) (rev (p_nodes p))).
Definition bytes_eqb (a b : bytes) : bool := if list_eq_dec Z.eq_dec a b then true else false.
Definition path_verify (p : path) (r : bytes) : option bool :=
  let* r' := path_root p in Some (bytes_eqb r' r).

(** path.rs:133-156  RangePath::root; 159-161 verify *)
Fixpoint range_loop (cur_idx : nat) (cur : bytes) (nodes : list bytes) : option bytes :=
  match nodes with
  | [] => Some cur
  | n :: r =>
    let cur' := if is_left_child cur_idx then node_hash cur n else node_hash n cur in
    let* up := parent_index cur_idx in
    range_loop up cur' r
  end.
Definition range_root (p : range_path) : option bytes :=
  let* sub := new_with_leaves (r_leaves p) in
  let th := height sub + length (r_nodes p) in
  let* cur := root sub in
  let* li := convert_index_to_last_level (r_left p) th in
  let* ri := convert_index_to_last_level (r_right p) th in
  let* ci := common_ancestor li ri in
  range_loop ci cur (rev (r_nodes p)).
Definition range_verify (p : range_path) (r : bytes) : option bool :=
  let* r' := range_root p in Some (bytes_eqb r' r).
End Model.
