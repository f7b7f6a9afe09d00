(** Data structures of the circuit compiler: compiler/expander_compiler/src/utils/.
    [None] is an index fault, an underflow or a loop that runs out of fuel. *)
From Coq Require Import List Arith Bool.
From Verif Require Import Base.Array.
Import ListNotations.

(** ** union_find.rs *)
(** union_find.rs:6-9 new *)
Definition uf_new (n : nat) : list nat := seq 0 n.

(** union_find.rs:11-17 find; [fuel] bounds the number of loop iterations *)
Fixpoint uf_find_loop (fuel : nat) (p : list nat) (x : nat) : option (list nat * nat) :=
  let* px := aget p x in
  if px =? x then Some (p, x) else
  match fuel with
  | O => None
  | S f =>
    let* pp := aget p px in
    let* p := aset p x pp in
    let* x := aget p x in
    uf_find_loop f p x
  end.
Definition uf_find (p : list nat) (x : nat) : option (list nat * nat) := uf_find_loop (length p) p x.

(** union_find.rs:19-23 union *)
Definition uf_union (p : list nat) (x y : nat) : option (list nat) :=
  let* (p, x) := uf_find p x in
  let* (p, y) := uf_find p y in
  aset p x y.

(** ** heap.rs *)
Section Heap.
(** The comparator, as the test [cmp(a, b) == Ordering::Less]. *)
Variable lt : nat -> nat -> bool.

(** Vec::swap *)
Definition swap (s : list nat) (i j : nat) : option (list nat) :=
  let* a := aget s i in
  let* b := aget s j in
  let* s := aset s i b in
  aset s j a.

(** heap.rs:8-16 the loop of push *)
Fixpoint sift_up (fuel : nat) (s : list nat) (i : nat) : option (list nat) :=
  if i =? 0 then Some s else
  match fuel with
  | O => None
  | S f =>
    let p := (i - 1) / 2 in
    let* a := aget s i in
    let* b := aget s p in
    if lt a b then let* s := swap s i p in sift_up f s p else Some s
  end.

(** heap.rs:5-17 push *)
Definition heap_push (s : list nat) (x : nat) : option (list nat) :=
  let s := s ++ [x] in sift_up (length s) s (length s - 1).

(** heap.rs:30-41 the loop of pop *)
Fixpoint sift_down (fuel : nat) (s : list nat) (i : nat) : option (list nat) :=
  if 2 * i + 1 <? length s then
    match fuel with
    | O => None
    | S f =>
      let j := 2 * i + 1 in
      let* j :=
        if j + 1 <? length s then
          let* b := aget s (j + 1) in
          let* a := aget s j in
          Some (if lt b a then j + 1 else j)
        else Some j in
      let* a := aget s j in
      let* b := aget s i in
      if lt a b then let* s := swap s i j in sift_down f s j else Some s
    end
  else Some s.

(** heap.rs:19-43 pop: the returned value and the new vector *)
Definition heap_pop (s : list nat) : option (option nat * list nat) :=
  match s with
  | [] => Some (None, [])
  | [x] => Some (Some x, [])
  | x :: _ =>
    let* s' := aset (removelast s) 0 (last s 0) in
    let* s' := sift_down (length s') s' 0 in
    Some (Some x, s')
  end.
End Heap.

(** ** pool.rs *)
Section Pool.
Variable V : Type.
(** The [Eq] instance of V.  The hash map is modelled by its lookup: the last
    value inserted for an equal key. *)
Variable eqb : V -> V -> bool.

Record pool := { pool_vec : list V; pool_map : list (V * nat) }.
(** pool.rs:13-18 new *)
Definition pool_new : pool := {| pool_vec := []; pool_map := [] |}.
Definition pool_lookup (v : V) (m : list (V * nat)) : option nat :=
  option_map snd (find (fun e => eqb v (fst e)) m).
(** pool.rs:20-28 add *)
Definition pool_add (p : pool) (v : V) : pool * nat :=
  match pool_lookup v (pool_map p) with
  | Some idx => (p, idx)
  | None =>
    let idx := length (pool_vec p) in
    ({| pool_vec := pool_vec p ++ [v]; pool_map := (v, idx) :: pool_map p |}, idx)
  end.
(** pool.rs:34-36 try_get_idx, 38-40 get ([None] is the panic), 50-52 len *)
Definition pool_try_get_idx (p : pool) (v : V) : option nat := pool_lookup v (pool_map p).
Definition pool_get (p : pool) (idx : nat) : option V := nth_error (pool_vec p) idx.
Definition pool_len (p : pool) : nat := length (pool_vec p).
End Pool.
Arguments pool_vec {V}. Arguments pool_map {V}. Arguments pool_new {V}.

(** ** bucket_sort.rs *)
Section BucketSort.
Variable T : Type.
Variable default : T.
Variable f : T -> nat.

(** bucket_sort.rs:1-22 *)
Definition bucket_sort (a : list T) (m : nat) : option (list T * list nat) :=
  let n := length a in
  let cnt := repeat 0 m in
  let* cnt := for_in (seq 0 n) (fun i cnt =>
    let* x := aget a i in
    let* c := aget cnt (f x) in
    aset cnt (f x) (c + 1)) cnt in
  let* cnt := for_in (seq 1 (m - 1)) (fun i cnt =>
    let* c := aget cnt i in
    let* c' := aget cnt (i - 1) in
    aset cnt i (c + c')) cnt in
  let* (res, cnt) := for_in (rev (seq 0 n)) (fun i (st : list T * list nat) =>
    let (res, cnt) := st in
    let* x := aget a i in
    let p := f x in
    let* c := aget cnt p in
    let* _ := guard (1 <=? c) in
    let* cnt := aset cnt p (c - 1) in
    let* c := aget cnt p in
    let* res := aset res c x in
    Some (res, cnt)) (repeat default n, cnt) in
  Some (res, cnt).
End BucketSort.

(** ** misc.rs *)
(** misc.rs:3-12 prev_power_of_two, 14-20 next_power_of_two.  [1 << padk] is a
    power of two while padk < 64; a shift by 64 or more is [None]. *)
Fixpoint prev_pow2_loop (fuel padk x : nat) : option nat :=
  match fuel with
  | O => None
  | S f => if 2 ^ padk <=? x then prev_pow2_loop f (padk + 1) x else Some padk
  end.
Definition prev_power_of_two (x : nat) : option nat :=
  if x =? 0 then Some 0 else
  let* padk := prev_pow2_loop 64 0 x in Some (2 ^ (padk - 1)).
Fixpoint next_pow2_loop (fuel padk x : nat) : option nat :=
  match fuel with
  | O => None
  | S f => if 2 ^ padk <? x then next_pow2_loop f (padk + 1) x else Some padk
  end.
Definition next_power_of_two (x : nat) : option nat :=
  let* padk := next_pow2_loop 64 0 x in Some (2 ^ padk).
