(** What the widths of the range checks are claimed to be worth: in every run of a model whose
    layers all satisfy [K] (given the scale, the inferred shapes and the run), every layer with a
    range check gets a width that holds all the values of its outputs at the scale. *)
From Coq Require Import List Bool Reals String.
From Verif Require Import Spec.RealOps Model.Bounds.
Import ListNotations.
Local Open Scope R_scope.

Definition consistent (input_names : list string) (layers : list layer) (env : valuation) : Prop :=
  runs input_names (map body layers) env /\
  ordered env input_names (map (fun l => (body l, weights l)) layers).
Definition range_checked (l : layer) : Prop :=
  needs_rescale (kind (body l)) || is_range_check_op (kind (body l)) = true.
Definition supported (alpha : R) (shapes : string -> option (list nat)) (env : valuation) (l : layer) : Prop :=
  analysable alpha shapes env (body l) (weights l).
Definition widths_suffice (K : R -> (string -> option (list nat)) -> valuation -> layer -> Prop) : Prop :=
  forall alpha shapes input_names layers env bounds n_bits, 1 <= alpha ->
    consistent input_names layers env -> NoDup (map name layers) ->
    Forall (K alpha shapes env) layers ->
    compute_bounds alpha shapes input_names layers = Some (bounds, n_bits) ->
    forall l, In l layers -> range_checked l ->
    exists k, map_get (name l) n_bits = Some k /\ bits_hold alpha env (body l) k.
(** What the chosen scale is claimed to be worth: the accumulators of the layer, which carry the
    scale twice, stay within [n_bits] bits, one of them for the sign. *)
Definition accumulators_fit (n_bits : nat) (max_bound : R) (env : valuation) (l : layer) : Prop :=
  let alpha := 2 ^ max_safe_exponent n_bits max_bound in
  each_output env (body l) (fun _ v => Rabs (alpha * alpha * v) <= 2 ^ (n_bits - 1)).
