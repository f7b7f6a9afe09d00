(** Vocabulary for the properties of layered circuits *)
From Coq Require Import List Bool Arith NArith Permutation.
From Verif Require Import Base.Field Model.Layered.
Import ListNotations.
Local Open Scope list_scope.

Section Spec.
Variable K : field.
Local Notation seg := (segment K).

(** The public inputs named by a gate exist, when there are [n] of them *)
Definition coef_in (n : nat) (k : coef K) : Prop := match k with PublicInput id => id < n | _ => True end.
Definition publics_in (n : nat) (s : seg) : Prop :=
  (forall m, In m (s_muls s) -> coef_in n (m_coef m)) /\ (forall a, In a (s_adds s) -> coef_in n (a_coef a)) /\
  (forall k, In k (s_consts s) -> coef_in n (k_coef k)) /\ (forall u, In u (s_customs s) -> coef_in n (u_coef u)).
(** The number of values the last layer computes *)
Definition last_size (c : circuit K) : option nat := option_map s_outputs (nth_error (c_segments c) (last (c_layers c) 0)).

(** The [j]-th lane of a vector *)
Definition lane (j : nat) (v : list K) : K := nth j v f0.
(** Vectors of [pack] lanes *)
Definition vec (pack : nat) (v : list K) : Prop := length v = pack.

(** The one-input gates the prover knows: the fifth power and the identity *)
Definition uni (t : nat) (x : K) : option K :=
  if (N.of_nat t =? 12345)%N then let x2 := (x * x)%K in let x4 := (x2 * x2)%K in Some (x4 * x)%K
  else if (N.of_nat t =? 12346)%N then Some x else None.
Definition constant (k : coef K) : Prop := exists c, k = Constant c.
Definition known (n : nat) (k : coef K) : Prop := (exists c, k = Constant c) \/ exists id, k = PublicInput id /\ id < n.
(** One input layer, custom gates of one input *)
Definition single (s : seg) : Prop := length (s_inputs s) = 1 /\ forall u, In u (s_customs s) -> exists p, u_in u = [p].
(** ... whose coefficients are constants (or public inputs, for the constant gates) and
    whose custom gates are those of the prover *)
Definition plain (custom : nat -> list K -> option (list K)) (n : nat) (s : seg) : Prop :=
  length (s_inputs s) = 1 /\
  (forall m, In m (s_muls s) -> constant (m_coef m)) /\ (forall a, In a (s_adds s) -> constant (a_coef a)) /\
  (forall k, In k (s_consts s) -> known n (k_coef k)) /\
  (forall u, In u (s_customs s) -> constant (u_coef u) /\ exists p, u_in u = [p] /\ forall x, exists y, uni (u_type u) x = Some y /\ custom (u_type u) [x] = Some [y]).
(** The prover's circuits have at least two values in a layer *)
Definition pad (l : list K) : list K := l ++ repeat f0 (2 - length l).

(** A map may be iterated in any order *)
Definition any_order (order : list nat -> leaves -> leaves) : Prop := forall site l, Permutation (order site l) l.
(** The same gates, in some order *)
Definition same_layer (a b : player K) : Prop :=
  pl_ivars K a = pl_ivars K b /\ pl_ovars K a = pl_ovars K b /\ Permutation (pl_mul K a) (pl_mul K b) /\ Permutation (pl_add K a) (pl_add K b) /\
  Permutation (pl_const K a) (pl_const K b) /\ Permutation (pl_uni K a) (pl_uni K b).
Definition same_circuit (a b : pcircuit K) : Prop := pc_zeros K a = pc_zeros K b /\ Forall2 same_layer (pc_layers K a) (pc_layers K b).
End Spec.
