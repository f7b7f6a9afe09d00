(** The circuit with its lookups collected, as it is really checked:
    a fixed assignment of the hint outputs, the queries pushed by every
    [rangeproof] call, and one final LogUp check per table at the end of
    the circuit (/repo/rust/jstprove_circuits/src/onnx.rs:68-140: layers first,
    then [finalize]; /repo/compiler/circuit-std-rs/src/logup.rs:344-360, 440-464:
    queries are only pushed on a vector until [final_check]). *)
From Coq Require Import ZArith List Bool Znumtheory.
From Verif Require Import Base.Field Model.LogUp Model.Builder Model.Gadgets.
Import ListNotations.
Local Open Scope Z_scope.

(** Evaluate a gadget program on the hint outputs [hs] (one list per hint call);
    [None] when an assertion fails or the hint outputs do not fit.  Returns the
    result, the unused hint outputs and the queries made. *)
Fixpoint trace {A} (m : prog A) (hs : list (list Z))
    : option (A * list (list Z) * list (tableid * list Z)) :=
  match m with
  | Ret a => Some (a, hs, [])
  | Fail _ => None
  | Hint _ _ n k =>
      match hs with
      | outs :: r => if (length outs =? n)%nat then trace (k outs) r else None
      | [] => None
      end
  | AssertEq x y k => if x =? y then trace k hs else None
  | Lookup t row k =>
      match trace k hs with
      | Some (a, r, qs) => Some (a, r, (t, row) :: qs)
      | None => None
      end
  end.

(** The table and the queries as field elements. *)
Definition range_table (p : Z) (Hp : prime p) (c : nat) : list (Fp_field p Hp) :=
  map (fun i => to_fp p (Z.of_nat i)) (seq 0 (2 ^ c)).

(** The values queried in the range table. *)
Fixpoint range_queries (qs : list (tableid * list Z)) : list Z :=
  match qs with
  | (TRange, [v]) :: r => v :: range_queries r
  | _ :: r => range_queries r
  | [] => []
  end.

(** The whole circuit accepts: assertions hold for the hint outputs [hs], and
    the final LogUp check of the range table passes at challenge [alpha] with
    the multiplicities [counts]. *)
Definition circuit_accepts {A} (p : Z) (Hp : prime p) (c : nat) (m : prog A) (a : A)
    (hs : list (list Z)) (counts : list (Fp_field p Hp)) (alpha : Fp_field p Hp) : Prop :=
  exists qs, trace m hs = Some (a, [], qs) /\
    range_final_check (range_table p Hp c) (map (to_fp p) (range_queries qs) : list (Fp_field p Hp))
      counts alpha.
