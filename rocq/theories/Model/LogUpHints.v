(** Models of the witness-generation hints of the LogUp tables,
    /repo/compiler/circuit-std-rs/src/logup.rs:467-518.  Field elements are
    given by their canonical residues ([to_u256]). *)
From Coq Require Import ZArith List Bool.
Import ListNotations.
Local Open Scope Z_scope.

Fixpoint upd {A} (l : list A) (i : nat) (f : A -> A) : list A :=
  match l, i with
  | [], _ => []
  | x :: r, O => f x :: r
  | x :: r, S j => x :: upd r j f
  end.

(** query_count_hint, logup.rs:467-483: [as_usize] keeps the low 64 bits;
    an index outside the table is an error; counts are stored as u32
    ([F::from(count as u32)]). *)
Fixpoint count_loop (inputs : list Z) (count : list Z) : option (list Z) :=
  match inputs with
  | [] => Some count
  | x :: r =>
      let id := x mod 2 ^ 64 in
      if Z.of_nat (length count) <=? id then None
      else count_loop r (upd count (Z.to_nat id) (fun v => v + 1))
  end.

Definition query_count_hint (inputs : list Z) (noutputs : nat) : option (list Z) :=
  option_map (map (fun v => v mod 2 ^ 32)) (count_loop inputs (repeat 0 noutputs)).

(** query_count_by_key_hint, logup.rs:485-518: keys are compared after
    [to_u256().as_u32()], i.e. modulo 2^32.  The inputs are the table size, the
    table keys and the query keys; here they are passed separately. *)
Definition key32 (k : Z) : Z := k mod 2 ^ 32.

Definition count_key (queries : list Z) (k : Z) : Z :=
  Z.of_nat (length (filter (fun q => key32 q =? key32 k) queries)) mod 2 ^ 32.

Definition query_count_by_key_hint (table queries : list Z) : list Z :=
  map (count_key queries) table.
