(** C57-C60, C65: the circuit compiler's data structures.  [None] is an index
    fault, an underflow or a loop that does not stop. *)
From Coq Require Import List Arith Bool Permutation Lia.
From Verif Require Import Base.Array Model.Containers Spec.Containers.
From Verif Require Proofs.UnionFind Proofs.Heap Proofs.Containers.
Import ListNotations.

(** ** C57  Union-find: after any history of unions and finds, two elements have the
    same representative exactly when the united pairs connect them. *)
Theorem C57_union_find n ops a b : Forall (op_in_range n) ops -> a < n -> b < n ->
  exists p pa ra pb rb, UnionFind.uf_run n ops = Some p /\
    uf_find p a = Some (pa, ra) /\ uf_find p b = Some (pb, rb) /\
    (ra = rb <-> connected (united ops) a b).
Proof. exact (UnionFind.union_find_ok n ops a b). Qed.
Print Assumptions C57_union_find.

Theorem C57_representative n ops a : Forall (op_in_range n) ops -> a < n ->
  exists p pa ra, UnionFind.uf_run n ops = Some p /\ uf_find p a = Some (pa, ra) /\ ra < n /\
    connected (united ops) a ra /\ (exists pr, uf_find pa ra = Some (pr, ra)).
Proof. exact (UnionFind.union_find_rep n ops a). Qed.
Print Assumptions C57_representative.

Example C57_applies : Forall (op_in_range 5) [Union 0 1; Find 1; Union 3 4; Union 1 3] /\
  exists p, UnionFind.uf_run 5 [Union 0 1; Find 1; Union 3 4; Union 1 3] = Some p /\
    option_map snd (uf_find p 0) = option_map snd (uf_find p 4) /\
    option_map snd (uf_find p 0) <> option_map snd (uf_find p 2).
Proof. split; [repeat constructor; lia|]. eexists. split; [reflexivity|]. split; [reflexivity|]. cbn. discriminate. Qed.

(** ** C58  The heap is a priority queue: every history of pushes and pops succeeds and
    returns what removing a least element of the bag may return. *)
Theorem C58_priority_queue lt ops : strict_weak_order lt ->
  exists out s bag, Heap.heap_run lt ops [] = Some (out, s) /\
    pq_run lt ops [] out bag /\ Permutation s bag.
Proof. exact (fun H => Heap.history_ok lt H ops). Qed.
Print Assumptions C58_priority_queue.

Example C58_applies : strict_weak_order Nat.ltb /\
  Heap.heap_run Nat.ltb [Push 5; Push 2; Push 9; Push 2; Pop; Pop; Push 1; Pop; Pop; Pop; Pop] [] =
    Some ([None; None; None; None; Some 2; Some 2; None; Some 1; Some 5; Some 9; None], []).
Proof.
  split; [|reflexivity]. split; intros *; rewrite ?Nat.ltb_lt, ?Nat.ltb_ge; lia.
Qed.

(** ** C59  The pool gives each distinct value one index, and the index gives it back. *)
Theorem C59_pool V eqb vs p is : (forall a b : V, eqb a b = true <-> a = b) ->
  Containers.pool_run V eqb vs pool_new = (p, is) ->
  length is = length vs /\
  (forall j v i, nth_error vs j = Some v -> nth_error is j = Some i ->
     pool_get V p i = Some v /\ pool_try_get_idx V eqb p v = Some i) /\
  (forall j k v w i i', nth_error vs j = Some v -> nth_error vs k = Some w ->
     nth_error is j = Some i -> nth_error is k = Some i' -> (i = i' <-> v = w)) /\
  (forall v, In v (pool_vec p) <-> In v vs) /\ NoDup (pool_vec p).
Proof. exact (fun H => Containers.pool_history V eqb H vs p is). Qed.
Print Assumptions C59_pool.

(** Later insertions never change what an index means. *)
Theorem C59_pool_stable V eqb vs ws p is q js i v : (forall a b : V, eqb a b = true <-> a = b) ->
  Containers.pool_run V eqb vs pool_new = (p, is) -> Containers.pool_run V eqb ws p = (q, js) ->
  pool_get V p i = Some v -> pool_get V q i = Some v.
Proof. exact (fun H => Containers.pool_stable V eqb H vs ws p is q js i v). Qed.
Print Assumptions C59_pool_stable.

Example C59_applies : (forall a b, Nat.eqb a b = true <-> a = b) /\
  snd (Containers.pool_run nat Nat.eqb [7; 3; 7; 9; 3] pool_new) = [0; 1; 0; 2; 1].
Proof. split; [exact Nat.eqb_eq|reflexivity]. Qed.

(** ** C60  Bucket sort is the stable sort by key; the second result counts the
    elements with a smaller key, and a key outside the buckets faults. *)
Theorem C60_bucket_sort T default f a m : Forall (fun x => f x < m) a ->
  exists out cnt, bucket_sort T default f a m = Some (out, cnt) /\ stable_sort_by f a out /\
    length cnt = m /\ forall k, k < m -> nth_error cnt k = Some (length (filter (fun x => f x <? k) a)).
Proof. exact (Containers.bucket_sort_ok T default f a m). Qed.
Print Assumptions C60_bucket_sort.

Theorem C60_key_out_of_range T default f a m : Exists (fun x => m <= f x) a ->
  bucket_sort T default f a m = None.
Proof. exact (Containers.bucket_sort_faults T default f a m). Qed.
Print Assumptions C60_key_out_of_range.

Example C60_applies : Forall (fun x : nat * nat => fst x < 4) [(3, 0); (1, 1); (3, 2); (0, 3); (1, 4)] /\
  bucket_sort _ (0, 0) fst [(3, 0); (1, 1); (3, 2); (0, 3); (1, 4)] 4 =
    Some ([(0, 3); (1, 1); (1, 4); (3, 0); (3, 2)], [0; 1; 3; 3]).
Proof. split; [repeat constructor; cbn; lia|reflexivity]. Qed.

(** ** C65  Rounding to powers of two; beyond 2^63 the loop's shift overflows. *)
Theorem C65_prev_power_of_two x : 0 < x < 2 ^ 63 ->
  exists K, prev_power_of_two x = Some (2 ^ K) /\ 2 ^ K <= x < 2 ^ S K.
Proof. exact (Containers.prev_pow2_total x _ eq_refl). Qed.
Print Assumptions C65_prev_power_of_two.

Theorem C65_next_power_of_two x : x <= 2 ^ 63 ->
  exists K, next_power_of_two x = Some (2 ^ K) /\ x <= 2 ^ K /\ forall j, x <= 2 ^ j -> K <= j.
Proof. exact (Containers.next_pow2_total x _ eq_refl). Qed.
Print Assumptions C65_next_power_of_two.

Theorem C65_overflow x : (2 ^ 63 <= x -> prev_power_of_two x = None) /\
  (2 ^ 63 < x -> next_power_of_two x = None).
Proof. exact (conj (Containers.prev_pow2_over x _ eq_refl) (Containers.next_pow2_over x _ eq_refl)). Qed.
Print Assumptions C65_overflow.

Example C65_applies : prev_power_of_two 100 = Some 64 /\ next_power_of_two 100 = Some 128 /\
  prev_power_of_two 64 = Some 64 /\ next_power_of_two 64 = Some 64 /\
  prev_power_of_two 0 = Some 0 /\ next_power_of_two 0 = Some 1.
Proof. repeat split; reflexivity. Qed.
