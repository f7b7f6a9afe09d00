(** Orders of directed graphs. *)
From Coq Require Import List Arith Permutation Relations String.
Import ListNotations.

(** [u] stands strictly before [v] in [o]. *)
Definition precedes (o : list nat) (u v : nat) : Prop :=
  exists o1 o2 o3, o = o1 ++ u :: o2 ++ v :: o3.

(** [o] lists every vertex once, and the source of every edge before its target. *)
Definition topological (V : list nat) (edge : nat -> nat -> Prop) (o : list nat) : Prop :=
  NoDup o /\ (forall v, In v o <-> In v V) /\ forall u v, edge u v -> precedes o u v.

(** Some vertex can be reached from itself along one or more edges. *)
Definition cyclic (edge : nat -> nat -> Prop) : Prop := exists v, clos_trans nat edge v v.

(** A layer of the graph, by the names it reads and the names it writes. *)
Record layer := { l_inputs : list string; l_outputs : list string }.

(** The last layer that writes [x] is layer [j]. *)
Definition last_writer (layers : list layer) (j : nat) (x : string) : Prop :=
  exists l, nth_error layers j = Some l /\ In x (l_outputs l) /\
    forall k l', j < k -> nth_error layers k = Some l' -> ~ In x (l_outputs l').

(** Layer [i] reads a name that another layer [j] writes (the last writer, when
    several layers write it). *)
Definition feeds (layers : list layer) (j i : nat) : Prop :=
  j <> i /\ exists l x, nth_error layers i = Some l /\ In x (l_inputs l) /\ last_writer layers j x.
