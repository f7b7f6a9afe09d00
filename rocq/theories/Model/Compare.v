(** Comparison by bit decomposition:
    /repo/compiler/expander_compiler/src/frontend/builder.rs:469-533 (gt, geq) with
    the lowering of ToBinary and BoolBinOp in
    /repo/compiler/expander_compiler/src/builder/hint_normalize.rs:134-160, 267-303,
    and the Greater / Less layers
    /repo/rust/jstprove_circuits/src/circuit_functions/layers/greater.rs:74-101,
    less.rs:84-100.
    The arrays are flattened and already broadcast; [display] has no effect. *)
From Coq Require Import ZArith List Bool Lia.
From Verif Require Import Model.Builder Model.Gadgets.
Import ListNotations.
Local Open Scope Z_scope.

Section Compare.
Variable p : Z.

(** ToBinary, hint_normalize.rs:267-303: sum of bit_i * 2^i, each bit boolean *)
Fixpoint to_binary_sum (sum coef : Z) (bits : list Z) : prog Z :=
  match bits with
  | [] => Ret sum
  | b :: r =>
      let* _ := assert_bool p b in
      to_binary_sum (add p sum (mul p coef b)) (add p coef coef) r
  end.

Definition to_binary (x : Z) (n : nat) : prog (list Z) :=
  let* bits := hintn HToBinary [x] n in
  let* sum := to_binary_sum (const p 0) (const p 1) bits in
  let* _ := assert_zero (sub p x sum) in
  Ret bits.

(** BoolBinOp, hint_normalize.rs:134-160 *)
Definition band (x y : Z) : prog Z :=
  let* _ := assert_bool p x in let* _ := assert_bool p y in Ret (mul p x y).
Definition bor (x y : Z) : prog Z :=
  let* _ := assert_bool p x in let* _ := assert_bool p y in Ret (sub p (add p x y) (mul p x y)).
Definition bxor (x y : Z) : prog Z :=
  let* _ := assert_bool p x in let* _ := assert_bool p y in
  Ret (sub p (add p x y) (mul p (const p 2) (mul p x y))).

(** The loop of gt, builder.rs:500-518; the bits come most significant first. *)
Fixpoint gt_loop (result still_equal : Z) (bits : list (Z * Z)) : prog Z :=
  match bits with
  | [] => Ret result
  | (xb, yb) :: r =>
      let not_y := sub p (const p 1) yb in
      let* g := band xb not_y in
      let* set := band still_equal g in
      let* result' := bor result set in
      let* diff := bxor xb yb in
      let equal := sub p (const p 1) diff in
      let* still' := band still_equal equal in
      gt_loop result' still' r
  end.

(** gt, builder.rs:471-521; [n] is 254 (BN254), 64 (Goldilocks) or 31 (M31) *)
Definition gt (n : nat) (x y : Z) : prog Z :=
  let* xs := to_binary x n in
  let* ys := to_binary y n in
  gt_loop (const p 0) (const p 1) (rev (combine xs ys)).

(** geq, builder.rs:524-533 *)
Definition geq (n : nat) (x y : Z) : prog Z :=
  let* g := gt n y x in Ret (sub p (const p 1) g).

(** GreaterLayer (runtime mode), greater.rs:96-101 *)
Definition greater_layer (n : nat) (a b : list Z) : prog (list Z) :=
  mapM (fun ab => gt n (fst ab) (snd ab)) (combine a b).
(** LessLayer (runtime mode), less.rs:96-100 *)
Definition less_layer (n : nat) (a b : list Z) : prog (list Z) :=
  mapM (fun ab => gt n (snd ab) (fst ab)) (combine a b).
End Compare.
