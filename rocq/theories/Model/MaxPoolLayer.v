(** The MaxPool layer over the circuit builder:
    rust/jstprove_circuits/src/circuit_functions/layers/maxpool.rs. *)
From Coq Require Import List ZArith.
From Verif Require Import Spec.Tensors Model.Builder Model.Gadgets Model.Selection Model.MaxPool.
Import ListNotations.

(** maxpool.rs:469-472; a window without values leaves the 0 of 415 *)
Definition pool_window (p : Z) (c s : nat) (offset : Z) (vs : list Z) : prog Z :=
  match vs with [] => Ret (const p 0) | _ => constrained_max p c s offset vs end.
(** maxpool.rs:48-90 apply, 367-478 maxpooling_2d; [n_bits] is 124-130 *)
Definition maxpool_layer (p : Z) (c : nat) (a : mp_node) (n_bits : nat) (x : tensor Z) : prog (tensor Z) :=
  if (n_bits =? 0)%nat then Fail 90 else
  let s := (n_bits - 1)%nat in
  let* '(P, (n, ch, h, w), (ph, pw)) := lift (setup_maxpooling a (dims x)) in
  let* offset := shift_ctx p s in
  let* out := mapM (fun o : nat * nat * nat * nat => let '(i0, i1, i2, i3) := o in
      let* vs := lift (window_values P x h w i0 i1 i2 i3) in pool_window p c s offset vs)
    (list_prod (list_prod (list_prod (seq 0 n) (seq 0 ch)) (seq 0 ph)) (seq 0 pw)) in
  Ret {| dims := [n; ch; ph; pw]; flat := out |}.
