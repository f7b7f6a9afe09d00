(** C47: layer graphs and sub-circuit graphs are ordered topologically.  The outer
    [None] is a panic or a loop that does not stop; the inner one is the error. *)
From Coq Require Import List Arith Bool Relations String Lia.
From Verif Require Import Base.Array Spec.Graph Model.Graph.
From Verif Require Proofs.Graph.
Import ListNotations.
Local Open Scope list_scope.

(** Sorting the layers never panics.  It returns an order in which every layer comes
    after the other layers that feed it, or an error when the layers feed each other
    in a cycle. *)
Theorem C47_topological_sort layers : exists r, topological_sort layers = Some r /\
  match r with
  | Some o => topological (seq 0 (List.length layers)) (feeds layers) o
  | None => cyclic (feeds layers)
  end.
Proof. exact (Graph.topological_sort_ok layers). Qed.
Print Assumptions C47_topological_sort.

(** The error is returned only when no order exists. *)
Theorem C47_no_order_on_a_cycle V edge o : topological V edge o -> ~ cyclic edge.
Proof. exact (Graph.topological_acyclic V edge o). Qed.
Print Assumptions C47_no_order_on_a_cycle.

(** The compiler's version, for hash maps visited in any order: vertices and edges
    are closed, keys are distinct. *)
Theorem C47_topo_order V edges : NoDup V -> NoDup (map fst edges) ->
  (forall k, In k (map fst edges) -> In k V) -> (forall k t, In (k, t) edges -> incl t V) ->
  exists o b, topo_order_and_is_dag V edges = Some (o, b) /\ topo_order V edges = Some o /\
    let edge u v := exists tos, In (u, tos) edges /\ In v tos in
    if b then topological V edge o else cyclic edge.
Proof. exact (Graph.topo_order_ok V edges). Qed.
Print Assumptions C47_topo_order.

(** A layer that reads its own output is not reported: only other layers count. *)
Theorem C47_self_loop_accepted x : topological_sort [{| l_inputs := [x]; l_outputs := [x] |}] = Some (Some [0]).
Proof. exact (Graph.self_loop x). Qed.
Print Assumptions C47_self_loop_accepted.

Example C47_applies :
  let l i o := {| l_inputs := i; l_outputs := o |} in
  topological_sort [l ["c"; "a"] ["d"]; l ["x"] ["a"; "b"]; l ["a"; "b"; "b"] ["c"]]%string = Some (Some [1; 2; 0]) /\
  topological_sort [l ["c"] ["d"]; l ["d"] ["c"]; l ["x"] ["e"]]%string = Some None /\
  topo_order_and_is_dag [3; 1; 7] [(3, [1]); (7, [3; 1])] = Some ([7; 3; 1], true) /\
  topo_order_and_is_dag [3; 1; 7] [(3, [1]); (1, [3; 7])] = Some ([], false).
Proof. repeat split; reflexivity. Qed.
