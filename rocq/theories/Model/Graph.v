(** Orderings of layer graphs and of sub-circuit graphs.  [None] is an index
    fault, an underflow, a missing map key or a loop that runs out of fuel. *)
From Coq Require Import List Arith Bool String.
From Verif Require Import Base.Array Spec.Graph.
Import ListNotations.
Local Open Scope list_scope.

(** Iterator::enumerate *)
Definition enumerate {A} (l : list A) : list (nat * A) := combine (seq 0 (List.length l)) l.

(** ** rust/jstprove_onnx/src/graph.rs *)
(** graph.rs:312-317 the map output_to_layer, as the list of its insertions, newest
    first; [owner] is HashMap::get *)
Definition output_to_layer (layers : list layer) : list (string * nat) :=
  fold_left (fun m (e : nat * layer) => let (idx, l) := e in
    fold_left (fun m out => (out, idx) :: m) (l_outputs l) m) (enumerate layers) [].
Definition owner (m : list (string * nat)) (x : string) : option nat :=
  option_map snd (find (fun e => String.eqb (fst e) x) m).

(** graph.rs:319-331 in_degree and adj *)
Definition link_input (m : list (string * nat)) (idx : nat) (input : string)
    (st : list (list nat) * list nat) : option (list (list nat) * list nat) :=
  match owner m input with
  | Some dep =>
    if dep =? idx then Some st else
    let (adj, deg) := st in
    let* a := aget adj dep in
    let* adj := aset adj dep (a ++ [idx]) in
    let* d := aget deg idx in
    let* deg := aset deg idx (d + 1) in
    Some (adj, deg)
  | None => Some st
  end.
Definition link_layers (layers : list layer) : option (list (list nat) * list nat) :=
  let m := output_to_layer layers in
  let n := List.length layers in
  for_each (enumerate layers) (fun (e : nat * layer) st => let (idx, l) := e in
    for_each (l_inputs l) (link_input m idx) st) (repeat [] n, repeat 0 n).

(** graph.rs:341-349 the loop over the queue *)
Definition release (next : nat) (st : list nat * list nat) : option (list nat * list nat) :=
  let (deg, queue) := st in
  let* d := aget deg next in
  let* _ := guard (1 <=? d) in
  let* deg := aset deg next (d - 1) in
  let* d := aget deg next in
  Some (deg, if d =? 0 then queue ++ [next] else queue).
Fixpoint sort_loop (fuel : nat) (adj : list (list nat)) (deg queue order : list nat) : option (list nat) :=
  match queue with
  | [] => Some order
  | idx :: queue =>
    match fuel with
    | O => None
    | S f =>
      let* nexts := aget adj idx in
      let* (deg, queue) := for_each nexts release (deg, queue) in
      sort_loop f adj deg queue (order ++ [idx])
    end
  end.

(** graph.rs:311-356 topological_sort; the inner [None] is the Err of bail! *)
Definition topological_sort (layers : list layer) : option (option (list nat)) :=
  let* (adj, deg) := link_layers layers in
  let queue := map fst (filter (fun e => snd e =? 0) (enumerate deg)) in
  let* order := sort_loop (List.length layers) adj deg queue [] in
  if List.length order =? List.length layers then Some (Some order) else Some None.

(** ** compiler/expander_compiler/src/utils/misc.rs *)
(** The hash set [vertices] and the hash map [edges] are given by lists, in the
    (arbitrary) order in which iteration visits them.  in_deg is a partial map. *)
Definition pmap := nat -> option nat.
Definition pset (m : pmap) (k v : nat) : pmap := fun j => if j =? k then Some v else m j.
(** HashMap::entry(k).and_modify(f): nothing happens when the key is absent *)
Definition and_modify (m : pmap) (k : nat) (f : nat -> option nat) : option pmap :=
  match m k with None => Some m | Some v => let* v := f v in Some (pset m k v) end.
Definition edges_get (edges : list (nat * list nat)) (k : nat) : option (list nat) :=
  option_map snd (find (fun e => fst e =? k) edges).

(** misc.rs:35-42 *)
Definition count_edges (vertices : list nat) (edges : list (nat * list nat)) : option pmap :=
  let m := fold_left (fun m v => pset m v 0) vertices (fun _ => None) in
  for_each edges (fun (e : nat * list nat) m => let (_, tos) := e in
    for_each tos (fun to m => and_modify m to (fun e => Some (e + 1))) m) m.
(** misc.rs:53-58 one edge *)
Definition release_edge (to : nat) (st : pmap * list nat) : option (pmap * list nat) :=
  let (m, queue) := st in
  let* m := and_modify m to (fun e => let* _ := guard (1 <=? e) in Some (e - 1)) in
  let* d := m to in
  Some (m, if d =? 0 then queue ++ [to] else queue).
(** misc.rs:49-60 *)
Fixpoint order_loop (fuel : nat) (edges : list (nat * list nat)) (i : nat) (m : pmap) (queue : list nat)
    : option (list nat) :=
  match nth_error queue i with
  | None => Some queue
  | Some from =>
    match fuel with
    | O => None
    | S f =>
      let* (m, queue) :=
        match edges_get edges from with
        | Some tos => for_each tos release_edge (m, queue)
        | None => Some (m, queue)
        end in
      order_loop f edges (i + 1) m queue
    end
  end.
(** misc.rs:43-47 the vertices of in-degree 0 *)
Definition initial_queue (vertices : list nat) (m : pmap) : option (list nat) :=
  for_each vertices (fun from queue => let* d := m from in
    Some (if d =? 0 then queue ++ [from] else queue)) [].
(** misc.rs:33-62 topo_order *)
Definition topo_order (vertices : list nat) (edges : list (nat * list nat)) : option (list nat) :=
  let* m := count_edges vertices edges in
  let* queue := initial_queue vertices m in
  order_loop (List.length vertices) edges 0 m queue.
(** misc.rs:22-29 topo_order_and_is_dag *)
Definition topo_order_and_is_dag (vertices : list nat) (edges : list (nat * list nat)) : option (list nat * bool) :=
  let* queue := topo_order vertices edges in
  Some (queue, List.length queue =? List.length vertices).
