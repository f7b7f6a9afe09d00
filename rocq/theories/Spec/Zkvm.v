(** Canonical models whose numbers fit the formats: u8, u32, u64 and i64 values, and vectors of
    fewer than 2^32 elements. *)
From Coq Require Import List ZArith.
From Verif Require Import Model.Zkvm.
From Verif Require Spec.RealOps.
From Coq Require QArith_base.
Import ListNotations.
Local Open Scope Z_scope.
Definition is_u32 (v : Z) : Prop := 0 <= v < 2 ^ 32.
Definition is_u64 (v : Z) : Prop := 0 <= v < 2 ^ 64.
Definition is_i64 (v : Z) : Prop := - 2 ^ 63 <= v < 2 ^ 63.
Definition vec32 (P : Z -> Prop) (l : list Z) : Prop := Z.of_nat (List.length l) < 2 ^ 32 /\ Forall P l.
Definition desc_ok (l : desc) : Prop :=
  0 <= op_type l < 256 /\ is_u32 (n_inputs l) /\ vec32 is_u32 (weight_dims l) /\ vec32 is_i64 (weight_data l) /\
  vec32 is_u32 (bias_dims l) /\ vec32 is_i64 (bias_data l) /\ vec32 is_i64 (int_attrs l) /\ vec32 is_i64 (extra_constant_data l).
Definition canonical_ok (m : canonical) : Prop :=
  is_u64 (base m) /\ is_u32 (exponent m) /\ is_u64 (alpha m) /\ vec32 is_u32 (input_dims m) /\
  Z.of_nat (List.length (layers m)) < 2 ^ 32 /\ Forall desc_ok (layers m).
(** The same model, except for the widths of its range checks. *)
Definition same_but_widths (m1 m2 : model) : Prop :=
  m_base m1 = m_base m2 /\ m_exponent m1 = m_exponent m2 /\ input_names m1 = input_names m2 /\ output_names m1 = output_names m2 /\
  topo_order m1 = topo_order m2 /\ input_shapes m1 = input_shapes m2 /\
  Forall2 (fun a b => name a = name b /\ op a = op b /\ inputs a = inputs b /\ outputs a = outputs b /\ weights a = weights b /\
                      attributes a = attributes b /\ rescale a = rescale b) (nodes m1) (nodes m2).
(** The constant a node reads at a position; its entries as integers. *)
Definition constant_at (n : node) (i : nat) : option tensor_data :=
  match nth_error (inputs n) i with Some s => get s (weights n) | None => None end.
Definition entries (t : tensor_data) : list Z :=
  match int_data t with [] => List.map (fun q => Z.quot (QArith_base.Qnum q) (Zpos (QArith_base.Qden q))) (float_data t) | d => d end.
(** Two nodes that agree in operator, rescaling, number of operands (up to 2^32), and in the shape
    (up to 2^32) and the entries of the constants they read as second and third operand. *)
Definition same_constant (a b : option tensor_data) : Prop :=
  match a, b with
  | Some t, Some u => Forall2 (fun x y => x mod 2 ^ 32 = y mod 2 ^ 32) (dims t) (dims u) /\ entries t = entries u
  | Some t, None | None, Some t => dims t = nil /\ entries t = nil
  | None, None => True
  end.
Definition alike (a b : node) : Prop :=
  op a = op b /\ rescale a = rescale b /\ Z.of_nat (List.length (inputs a)) mod 2 ^ 32 = Z.of_nat (List.length (inputs b)) mod 2 ^ 32 /\
  same_constant (constant_at a 1) (constant_at b 1) /\ same_constant (constant_at a 2) (constant_at b 2).
(** A node as an operator over the reals. *)
Definition over_reals (n : node) : RealOps.node :=
  {| RealOps.kind := op n; RealOps.inputs := inputs n; RealOps.outputs := outputs n; RealOps.trans_b := false; RealOps.slope := None; RealOps.epsilon := None |}.
