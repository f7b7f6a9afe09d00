(** Matrix products in the circuit:
    /repo/rust/jstprove_circuits/src/circuit_functions/gadgets/linear_algebra.rs:245-289
    (matrix_multiplication) and 430-544 (freivalds_verify_matrix_product).
    An [ArrayD] of rank 2 is a list of rows plus its dimensions; other ranks are
    rejected by the code and are not representable here.  The values returned by
    [get_random_value] are an argument: one vector per repetition. *)
From Coq Require Import ZArith List Bool Lia.
From Verif Require Import Model.Builder.
Import ListNotations.
Local Open Scope Z_scope.

Record matrix := { m_rows : nat; m_cols : nat; m_data : list (list Z) }.

Section M.
Variable p : Z.

(** The inner loops [acc = 0; acc += a_k * b_k], linear_algebra.rs:279-283, 502-532 *)
Definition dot (row v : list Z) : Z :=
  fold_left (fun acc ab => add p acc (mul p (fst ab) (snd ab))) (combine row v) (const p 0).

Definition column (B : list (list Z)) (j : nat) : list Z := map (fun row => nth j row 0) B.

(** matrix_multiplication, linear_algebra.rs:245-289 *)
Definition matrix_multiplication (A B : matrix) : prog matrix :=
  if negb (m_cols A =? m_rows B)%nat then Fail 30
  else Ret {| m_rows := m_rows A; m_cols := m_cols B;
              m_data := map (fun row => map (fun j => dot row (column (m_data B) j)) (seq 0 (m_cols B))) (m_data A) |}.

Definition mat_vec (M : list (list Z)) (v : list Z) : list Z := map (fun row => dot row v) M.

(** One repetition, linear_algebra.rs:491-541 *)
Definition freivalds_rep (A B C : matrix) (x : list Z) : prog unit :=
  let bx := mat_vec (m_data B) x in
  let cx := mat_vec (m_data C) x in
  let abx := mat_vec (m_data A) bx in
  forM (fun uw => assert_eq (fst uw) (snd uw)) (combine abx cx).

(** freivalds_verify_matrix_product, linear_algebra.rs:430-544 *)
Definition freivalds (A B C : matrix) (rands : list (list Z)) : prog unit :=
  if negb (m_cols A =? m_rows B)%nat then Fail 31
  else if negb (m_rows A =? m_rows C)%nat || negb (m_cols B =? m_cols C)%nat then Fail 32
  else if (length rands =? 0)%nat then Fail 33
  else forM (freivalds_rep A B C) rands.
End M.
