(** Specifications of the compiler's data structures. *)
From Coq Require Import List Arith Permutation.
Import ListNotations.

(** The equivalence relation generated by a list of pairs. *)
Inductive connected (pairs : list (nat * nat)) : nat -> nat -> Prop :=
| conn_pair a b : In (a, b) pairs -> connected pairs a b
| conn_refl a : connected pairs a a
| conn_sym a b : connected pairs a b -> connected pairs b a
| conn_trans a b c : connected pairs a b -> connected pairs b c -> connected pairs a c.

(** Operations on a union-find structure, and the pairs that were united. *)
Inductive uf_op := Union (a b : nat) | Find (a : nat).
Definition united (ops : list uf_op) : list (nat * nat) :=
  flat_map (fun o => match o with Union a b => [(a, b)] | Find _ => [] end) ops.
Definition op_in_range (n : nat) (o : uf_op) : Prop :=
  match o with Union a b => a < n /\ b < n | Find a => a < n end.

(** [lt] orders like "less than" of a total preorder (two elements that are not
    comparable are equivalent). *)
Definition strict_weak_order {A} (lt : A -> A -> bool) : Prop :=
  (forall a b, lt a b = true -> lt b a = false) /\
  (forall a b c, lt a b = false -> lt b c = false -> lt a c = false).

(** Priority queue, as a bag of elements: [pq_pop bag x rest] says that removing a
    least element of [bag] may give [x] and leave [rest]. *)
Definition pq_pop (lt : nat -> nat -> bool) (bag : list nat) (x : nat) (rest : list nat) : Prop :=
  Permutation bag (x :: rest) /\ forall y, In y bag -> lt y x = false.

(** Histories of a priority queue: [pq_run lt ops bag out bag'] says that running
    [ops] from the bag [bag] may return the results [out] and end in [bag']. *)
Inductive heap_op := Push (x : nat) | Pop.
Inductive pq_run (lt : nat -> nat -> bool) : list heap_op -> list nat -> list (option nat) -> list nat -> Prop :=
| pq_nil bag : pq_run lt [] bag [] bag
| pq_push x ops bag out bag' : pq_run lt ops (x :: bag) out bag' ->
    pq_run lt (Push x :: ops) bag (None :: out) bag'
| pq_pop_empty ops out bag' : pq_run lt ops [] out bag' -> pq_run lt (Pop :: ops) [] (None :: out) bag'
| pq_pop_some ops bag x rest out bag' : pq_pop lt bag x rest -> pq_run lt ops rest out bag' ->
    pq_run lt (Pop :: ops) bag (Some x :: out) bag'.

(** [out] is the stable sort of [inp] by the key [f]: ordered by key, and with the
    elements of each key in their original order. *)
Definition stable_sort_by {T} (f : T -> nat) (inp out : list T) : Prop :=
  Permutation inp out /\
  (forall i j x y, i < j -> nth_error out i = Some x -> nth_error out j = Some y -> f x <= f y) /\
  (forall k, filter (fun x => f x =? k) out = filter (fun x => f x =? k) inp).
