(** Input mappings of the compiler (compiler/expander_compiler/src/circuit/input_mapping.rs).
    [None] is a panic. *)
From Coq Require Import List Bool Arith NArith.
From Verif Require Import Base.Array.
Import ListNotations.
Local Open Scope list_scope.

(** input_mapping.rs:3, with 64-bit usize *)
Definition EMPTY : N := N.shiftr 18446744073709551615 9.
(** :5-9 *)
Record input_mapping := { next_size : N; mapping : list N }.
(** :16-21 *)
Definition new_identity (n : N) : input_mapping := {| next_size := n; mapping := map N.of_nat (seq 0 (N.to_nat n)) |}.
(** [l[i]] with a usize index *)
Definition nget {A} (l : list A) (i : N) : option A := if (i <? N.of_nat (length l))%N then aget l (N.to_nat i) else None.
Definition nset {A} (l : list A) (i : N) (v : A) : option (list A) := if (i <? N.of_nat (length l))%N then aset l (N.to_nat i) v else None.
(** :35-44 map_inputs *)
Definition map_inputs {T} (default : T) (m : input_mapping) (inputs : list T) : option (list T) :=
  let* _ := guard (length inputs =? length (mapping m))%nat in
  for_each (combine (mapping m) inputs) (fun (e : N * T) out =>
    if (fst e =? EMPTY)%N then Some out else nset out (fst e) (snd e))
    (repeat default (N.to_nat (next_size m))).
(** :50-69 validate *)
Fixpoint scan_used (n : N) (ms : list N) (used : list bool) : option (list bool) :=
  match ms with
  | [] => Some used
  | m :: r =>
    if (m =? EMPTY)%N then scan_used n r used
    else if (n <=? m)%N then None
    else match nget used m with
         | Some false => match nset used m true with Some u => scan_used n r u | None => None end
         | _ => None
         end
  end.
Definition validate (m : input_mapping) : bool :=
  match scan_used (next_size m) (mapping m) (repeat false (N.to_nat (next_size m))) with
  | Some used => forallb (fun u => u) used
  | None => false
  end.
(** :71-84 compose *)
Definition compose (a b : input_mapping) : option input_mapping :=
  let* ms := omap (fun m => if (m =? EMPTY)%N then Some EMPTY else nget (mapping b) m) (mapping a) in
  Some {| next_size := next_size b; mapping := ms |}.
(** :86-93 compose_in_place *)
Definition compose_in_place (a b : input_mapping) : option input_mapping :=
  let* ms := for_each (seq 0 (length (mapping a))) (fun i ms =>
      let* m := aget ms i in
      if (m =? EMPTY)%N then Some ms else let* x := nget (mapping b) m in aset ms i x) (mapping a) in
  Some {| next_size := next_size b; mapping := ms |}.
